(** The halves of a ring during further calls of the module [os] on Windows. *)
From Coq Require Import Lia.
From Verif Require Import WinOsProofs.
From Verif Require Import Base Spec ErrorModel SizeModel OsModel OsProofs MapModel MapSpec MapCreate MapProofs SizeProofs MapOps RingMapModel RingMapSpec MirrorProofs OsRingProofs WinModel WinSpec
  WinProofs WinClaims WinCalls WinMapModel WinMapSpec WinSpace WinKeep WinAlloc OsLayerModel OsLayerSpec OsLayerProofs WinOsModel WinOsSpec WinOsRingModel WinOsRingSpec.

Section Mirror.
  Variable t : target.
  Hypothesis Ht : good_target t.
  Notation P := (t_page t).
  Let HP : 0 < P.
  Proof. exact (pow2_pos _ (proj1 (proj2 Ht))). Qed.

  (** Every view not in [X] stays, and shows what it showed. *)
  Record goes (X : Z -> Prop) (s s' : win) : Prop := {
    gs_wf : wf (n_w s) -> wf (n_w s');
    gs_space : space_ok t s -> space_ok t s';
    gs_view : forall a n, n_view s a = Some n -> X a \/ n_view s' a = Some n;
    gs_page : forall a n p e, n_view s a = Some n -> in_view t a n p -> w_vm (n_w s) p = Some e ->
      (exists b m, X b /\ n_view s b = Some m /\ in_view t b m p) \/ exists e', w_vm (n_w s') p = Some e' /\ same_view e e';
    gs_size : forall o, o < w_next (n_w s) -> ~ named (n_w s) o -> o_size (w_obj (n_w s') o) = o_size (w_obj (n_w s) o);
    gs_named : forall o, named (n_w s') o -> named (n_w s) o \/ w_next (n_w s) <= o
  }.
  Lemma evolves_goes (X X' T Y : Z -> Prop) s s' : (forall a, X a -> X' a) -> evolves t X T Y s s' -> goes X' s s'.
  Proof.
    intros HX EV. pose proof (ev_weaken t X T Y X' T Y s s' HX (fun _ h => h) (fun _ h => h) EV) as [N Pg V Nw Z O A F Sp]. split; auto.
    intros a n p e E1 E2 E3. destruct (Pg a n p e E1 E2 E3) as [K|(e' & K1 & (B1 & B2 & B3 & B4 & B5 & B6 & B7) & _)]; [auto|].
    right. exists e'. split; [exact K1|]. repeat split; auto.
  Qed.
  Lemma keeps_goes X s s' : keeps t s s' -> goes X s s'.
  Proof. apply evolves_goes. intros x []. Qed.
  Lemma pages_goes X g s s' a len : (forall e, same_view e (g e)) -> other_state s s' -> pages_changed t g s s' a len -> goes X s s'.
  Proof.
    intros Hg (A1 & A2 & A3 & A4 & A5 & A6 & A7 & A8) C.
    assert (PG : forall p e, w_vm (n_w s) p = Some e -> exists e', w_vm (n_w s') p = Some e' /\ same_view e e').
    { intros p e E. specialize (C p). destruct (_ && _).
      - destruct C as (e0 & C1 & C2). assert (e0 = e) by congruence. subst e0. exists (g e). auto.
      - exists e. rewrite C. split; [exact E|apply same_view_refl]. }
    split.
    - intros W. apply (wf_change _ _ W).
      + intros p e' E. specialize (C p). destruct (_ && _).
        * destruct C as (e0 & C1 & C2). left. exists e0. split; [exact C1|]. assert (e' = g e0) by congruence. subst e'. apply Hg.
        * left. exists e'. rewrite <- C. auto.
      + lia.
      + intros fd f E. left. rewrite <- A6. exact E.
      + intros q o E. left. rewrite <- A7. exact E.
      + intros o. left. rewrite A5. reflexivity.
    - intros [S1 S2 S3]. split.
      + intros b n E. rewrite A2 in E. exact (S1 _ _ E).
      + intros b n p E I. rewrite A2 in E. destruct (S2 _ _ _ E I) as (e & E'). destruct (PG p e E') as (e' & E'' & _). eauto.
      + intros b n d m p E1 E2. rewrite A2 in E1, E2. exact (S3 _ _ _ _ _ E1 E2).
    - intros b n E. right. rewrite A2. exact E.
    - intros b n p e _ _ E. right. exact (PG p e E).
    - intros o _ _. rewrite A5. reflexivity.
    - intros o X0. left. exact (named_eq _ _ A6 A7 o X0).
  Qed.

  Lemma wostep_ev file c s r s' l : wf (n_w s) -> wocall_ok t c -> wostep t file c s = (r, s') ->
    goes (fun a => drops_view t a {| ev_call := WOs file c; ev_answer := r; ev_kernel := l |}) s s'.
  Proof.
    intros W OK H. destruct c; cbn [wostep wocall_ok] in *.
    - apply keeps_goes. exact (map_file_keeps t Ht _ _ _ _ _ _ _ W (proj1 OK) H).
    - apply keeps_goes. exact (map_anon_keeps t Ht _ _ _ _ _ W OK H).
    - apply wno_value_inv in H as (r0 & H & ->). unfold win_unmap in H. destruct (unmap_view t pg s) as [r1 s1] eqn:U.
      pose proof U as U'. apply unmap_view_spec in U as [_ U]. destruct r1 as [[]|e| | |]; try contradiction; injection H as <- <-.
      + refine (evolves_goes _ _ _ _ _ _ _ (proj1 (unmap_view_ev t _ _ _ _ U'))). intros x ->. reflexivity.
      + apply keeps_goes, (ev_wq t), U.
    - apply wno_value_inv in H as (r0 & H & ->). apply (win_protect_spec t Ht) in H as [O H]; [|exact OK].
      destruct r0 as [[]|e| | |]; try contradiction.
      + refine (pages_goes _ _ _ _ _ _ _ O (proj2 H)). intros e. unfold same_view, set_prot. cbn. repeat split; auto.
      + apply keeps_goes. exact (other_same_keeps t _ _ O (proj1 H)).
    - apply keeps_goes. apply wno_value_inv in H as (r0 & H & ->). apply (win_flush_any t Ht) in H as [H _]; [|exact OK]. exact (ev_flush t _ _ H).
    - apply keeps_goes. apply wno_value_inv in H as (r0 & H & ->). unfold win_advise, wret in H. injection H as <- <-. apply ev_refl.
    - apply keeps_goes. apply wno_value_inv in H as (r0 & H & ->). exact (proj1 (lock_call t Ht _ _ _ _ _ OK H)).
    - apply keeps_goes. apply wno_value_inv in H as (r0 & H & ->). exact (proj1 (unlock_call t Ht _ _ _ _ _ OK H)).
    - apply wno_value_inv in H as (r0 & H & ->). destruct (store t addr b (n_w s)) as [r1 w1] eqn:E. injection H as <- <-.
      apply (store_ev t) in E as [[-> E]|(-> & e & _ & _ & E)].
      + rewrite E. apply keeps_goes. replace (with_w s (n_w s)) with s by (destruct s; reflexivity). apply ev_refl.
      + destruct (p_shared e); refine (evolves_goes _ _ _ _ _ _ _ E); intros x [].
  Qed.

  Lemma wrstep_ev c s r s' l : wf (n_w s) -> wrcall_ok t c -> wrstep t c s = (r, s') ->
    goes (fun a => drops_view t a {| ev_call := c; ev_answer := r; ev_kernel := l |}) s s'.
  Proof.
    intros W OK H. destruct c as [file c|len|pg len]; cbn [wrstep wrcall_ok] in *.
    - exact (wostep_ev file c s r s' l W OK H).
    - apply keeps_goes. exact (proj1 (map_ring_keeps t Ht _ _ _ _ W OK H)).
    - apply wno_value_inv in H as (r0 & H & ->). unfold win_unmap_ring in H.
      change (ptr_add t pg len) with ((pg + len) mod 2 ^ t_bits t) in H.
      apply wbind_run in H as [([] & s1 & E1 & H)|[(x & E1 & ->)|[[E1 ->]|[[E1 ->]|[E1 ->]]]]];
        apply win_call_run in E1; [|destruct E1 as (y & E1 & ->)| | |]; pose proof (unmap_view_ev t _ _ _ _ E1) as [V1 V1'];
        apply unmap_view_spec in E1 as [L1 E1]; try contradiction.
      2:{ apply keeps_goes, (ev_wq t), E1. }
      apply no_result_run in H as (r3 & E3 & Er). pose proof (unmap_view_ev t _ _ _ _ E3) as [V3 V3'].
      apply unmap_view_spec in E3 as [L3 E3].
      assert (R0 : r0 = Ret tt) by (destruct r3 as [[]|x| | |]; try contradiction; exact Er). rewrite R0.
      refine (evolves_goes _ _ _ _ _ _ _ (ev_trans_gen t _ _ _ _ s s1 s' W _ _ V1 V3)); auto.
      intros a [->| ->]; cbn; auto.
  Qed.

  Lemma run_page h : forall s a n p e, wf (n_w s) -> space_ok t s -> Forall (wrcall_ok t) h ->
    (forall ev, In ev (fst (wrrun t h s)) -> ~ drops_view t a ev) ->
    n_view s a = Some n -> in_view t a n p -> w_vm (n_w s) p = Some e -> ~ named (n_w s) (p_obj e) ->
    (exists e', w_vm (n_w (snd (wrrun t h s))) p = Some e' /\ same_view e e') /\
    o_size (w_obj (n_w (snd (wrrun t h s))) (p_obj e)) = o_size (w_obj (n_w s) (p_obj e)).
  Proof.
    induction h as [|c h IH]; intros s a n p e W SO F D V I E N; [cbn; split; [exists e; split; [exact E|apply same_view_refl]|reflexivity]|].
    apply Forall_cons_iff in F as [F1 F2]. cbn [wrrun] in *. destruct (wrstep t c s) as [r s1] eqn:Ec. specialize (IH s1).
    pose proof (wrstep_ev c s r s1 (firstn (length (n_log s1) - length (n_log s)) (n_log s1)) W F1 Ec) as EV.
    destruct (wrrun t h s1) as [l s2]. cbn [fst snd] in *.
    assert (D0 := D _ (or_introl eq_refl)).
    assert (L : p_obj e < w_next (n_w s)) by exact (wf_vm _ W _ _ E).
    destruct (gs_page _ _ _ EV a n p e V I E) as [(b & m & X & B1 & B2)|(e1 & E1 & K1)].
    { rewrite (so_apart _ _ SO b m a n p B1 V B2 I) in X. contradiction. }
    destruct (gs_view _ _ _ EV a n V) as [X|V1]; [contradiction|].
    assert (O1 : p_obj e1 = p_obj e) by apply K1.
    destruct (IH a n p e1) as [(e2 & E2 & K2) Z2].
    - exact (gs_wf _ _ _ EV W).
    - exact (gs_space _ _ _ EV SO).
    - exact F2.
    - intros ev Hev. apply D. right. exact Hev.
    - exact V1.
    - exact I.
    - exact E1.
    - rewrite O1. intros X. apply (gs_named _ _ _ EV) in X as [X|X]; [contradiction|lia].
    - split; [exists e2; split; [exact E2|exact (same_view_trans _ _ _ K1 K2)]|].
      rewrite O1 in Z2. rewrite Z2. exact (gs_size _ _ _ EV _ L N).
  Qed.

  Lemma wmirror_law len s pg s1 h i : wf (n_w s) -> space_ok t s -> is_usize t len -> win_map_ring t len s = (Ret pg, s1) ->
    Forall (wrcall_ok t) h ->
    (forall ev, In ev (fst (wrrun t h s1)) -> ~ drops_view t pg ev /\ ~ drops_view t (pg + len) ev) -> 0 <= i < len ->
    exists b, load (E:=error) t (n_w (snd (wrrun t h s1))) (pg + i) = Ret b /\
              load (E:=error) t (n_w (snd (wrrun t h s1))) (pg + len + i) = Ret b.
  Proof.
    intros W SO Hl H F D Hi. pose proof (proj1 (map_ring_keeps t Ht _ _ _ _ W Hl H)) as EV.
    pose proof (ev_wf _ _ _ _ _ _ EV W) as W1. pose proof (ev_space _ _ _ _ _ _ EV SO) as SO1.
    destruct (win_map_ring_spec t Ht len s _ s1 Hl H) as (l & L & _ & [_ Rfd Rfs _ _] & (n & -> & R) & _).
    destruct R as [R1 R2 R3 R4 R5 R6 [R7 R8] R9 R10 R11 R12].
    assert (NN : ~ named (n_w s1) (w_next (n_w s))).
    { intros X. apply (named_eq (n_w s) (n_w s1) Rfd Rfs) in X. pose proof (named_wf _ _ W X). lia. }
    pose proof (aligned_page t Ht _ R2) as A1.
    pose proof (Z.div_mod i P ltac:(lia)) as Di. pose proof (Z.mod_pos_bound i P HP) as Mi.
    assert (Ji : 0 <= i / P < n) by (split; [apply Z.div_pos; lia|apply Z.div_lt_upper_bound; lia]).
    pose proof (Z.div_mod pg P ltac:(lia)) as Dp. rewrite A1, Z.add_0_r in Dp.
    assert (D2 : (pg + P * n) / P = pg / P + n) by (rewrite (Z.mul_comm P n); apply Z.div_add; lia).
    set (f := pg / P) in *. set (j := i / P) in *. set (k := i mod P) in *.
    assert (V1 : w_vm (n_w s1) (f + j) = Some (entry (w_next (n_w s)) j PRW true true)).
    { rewrite R6 by lia. rewrite Z.mod_small by lia. reflexivity. }
    assert (V2 : w_vm (n_w s1) (f + (n + j)) = Some (entry (w_next (n_w s)) j PRW true true)).
    { rewrite R6 by lia. replace (n + j) with (j + 1 * n) by lia. rewrite Z.mod_add, Z.mod_small by lia. reflexivity. }
    assert (I1 : in_view t pg n (f + j)) by (unfold in_view; fold f; lia).
    assert (I2 : in_view t (pg + P * n) n (f + (n + j))) by (unfold in_view; rewrite D2; lia).
    destruct (run_page h s1 pg n _ _ W1 SO1 F (fun ev Hev => proj1 (D ev Hev)) R7 I1 V1 NN) as [(e1 & E1 & X1) Z].
    destruct (run_page h s1 _ n _ _ W1 SO1 F (fun ev Hev => proj2 (D ev Hev)) R8 I2 V2 NN) as [(e2 & E2 & X2) _].
    destruct (wrrun t h s1) as [ll s2]. cbn [fst snd] in *. destruct X1 as (B1 & B2 & B3 & B4 & B5), X2 as (C1 & C2 & C3 & C4 & C5).
    cbn [entry p_obj p_idx p_shared p_r p_copy PRW pr_r] in *.
    exists (o_data (w_obj (n_w s2) (w_next (n_w s))) (P * j + k)).
    assert (Sz : P * j < o_size (w_obj (n_w s2) (w_next (n_w s)))) by (rewrite Z; nia).
    split.
    - replace (pg + i) with (P * (f + j) + k) by lia. rewrite (load_view t Ht _ _ _ _ E1); auto; rewrite ?B1, ?B2; auto.
    - replace (pg + P * n + i) with (P * (f + (n + j)) + k) by lia. rewrite (load_view t Ht _ _ _ _ E2); auto; rewrite ?C1, ?C2; auto.
  Qed.
End Mirror.
