(** Proofs for OsRingSpec.v. *)
From Coq Require Import Lia.
From Verif Require Import Base ErrorModel SizeModel SizeProofs OsModel OsProofs MapModel MapSpec MapOps MapCreate RingMapModel RingMapSpec MirrorProofs ProcFrame
  OsLayerModel OsLayerSpec OsLayerProofs OsRingModel OsRingSpec.

(** The page shows the same bytes as before. *)
Definition same_view (e e' : pte) : Prop :=
  p_obj e' = p_obj e /\ p_idx e' = p_idx e /\ p_shared e' = p_shared e /\ (p_r e = true -> p_r e' = true) /\
  (p_shared e = true -> p_copy e = None -> p_copy e' = None).
Lemma same_view_refl e : same_view e e.
Proof. repeat split; auto. Qed.
Lemma same_view_trans a b c : same_view a b -> same_view b c -> same_view a c.
Proof.
  intros (A1 & A2 & A3 & A4 & A5) (B1 & B2 & B3 & B4 & B5). split; [congruence|]. split; [congruence|]. split; [congruence|]. split; [auto|].
  intros S C. apply B5; [congruence|auto].
Qed.

Record goes_on (w w' : world) : Prop := {
  go_wf : wf w';
  go_size : forall o, o < w_next w -> o_size (w_obj w' o) = o_size (w_obj w o)
}.

Section OsRing.
  Variable t : target.
  Hypothesis Ht : good_target t.
  Variable plat : platform.
  Notation P := (t_page t).

  Let HP : 0 < P := pow2_pos _ (proj1 (proj2 Ht)).
  Lemma t_bits_le : t_bits t <= 64. Proof. pose proof (proj1 Ht). lia. Qed.
  Lemma t_bits_pos : 0 < t_bits t. Proof. pose proof (proj1 Ht). lia. Qed.

  Lemma quiet_goes w w' : wf w -> quiet w w' -> goes_on w w'.
  Proof. intros W Q. split; [exact (wf_quiet _ _ W Q)|intros o _; rewrite (q_obj _ _ Q); reflexivity]. Qed.

  (** Entries changed in place. *)
  Lemma inplace w w' (f : pte -> pte) (R : Z -> bool) : wf w -> (forall e, same_view e (f e)) ->
    (forall p, w_vm w' p = if R p then option_map f (w_vm w p) else w_vm w p) ->
    w_next w' = w_next w -> w_fd w' = w_fd w -> w_fs w' = w_fs w -> (forall o, o_size (w_obj w' o) = o_size (w_obj w o)) ->
    goes_on w w' /\ forall q e, w_vm w q = Some e -> exists e', w_vm w' q = Some e' /\ same_view e e'.
  Proof.
    intros W S V N F G Z. split.
    - split; [|auto]. apply (wf_change _ _ W); rewrite ?F, ?G; auto; [|lia]. intros p e' H. rewrite V in H.
      destruct (R p); [|eauto]. destruct (w_vm w p) as [e|]; [|discriminate H]. injection H as <-. left. exists e. split; [reflexivity|]. exact (proj1 (S e)).
    - intros q e E. rewrite V, E. destruct (R q); cbn; eexists; (split; [reflexivity|auto using same_view_refl]).
  Qed.

  Definition stays (ca : rocall * out error Z) (w w' : world) : Prop :=
    goes_on w w' /\ forall q e, w_vm w q = Some e -> unmaps t q ca = false -> exists e', w_vm w' q = Some e' /\ same_view e e'.
  Lemma quiet_stays ca w w' : wf w -> quiet w w' -> stays ca w w'.
  Proof.
    intros W Q. split; [exact (quiet_goes _ _ W Q)|]. intros q e E _. rewrite (q_vm _ _ Q). exists e. split; [exact E|apply same_view_refl].
  Qed.

  Lemma mapped_stays ca w w' addr len pr shared anon fd off a : wf w -> sys_mmap t false addr len pr shared anon fd off w = (Ret a, w') -> stays ca w w'.
  Proof.
    intros W H. pose proof (wfly_mmap t t_bits_le t_bits_pos HP false addr len pr shared anon fd off w W) as [W' _]. rewrite H in W'. cbn [snd] in W'.
    apply (mmap_spec t) in H as (_ & _ & H).
    assert (K : forall o idx maxw, mapped t w w' a len o idx pr shared maxw -> forall q e, w_vm w q = Some e -> unmaps t q ca = false -> exists e', w_vm w' q = Some e' /\ same_view e e').
    { intros o idx maxw M q e E _. exists e. split; [|apply same_view_refl]. rewrite (mp_vm _ _ _ _ _ _ _ _ _ _ M).
      destruct (in_pages_cases (a / P) (npages t len) q) as [[_ I]|[-> _]]; [|exact E]. rewrite (mp_free _ _ _ _ _ _ _ _ _ _ M q I) in E. discriminate E. }
    destruct anon.
    - destruct H as (M & N & O). split; [|exact (K _ _ _ M)]. split; [exact W'|]. intros o Ho. rewrite O, put_other by lia. reflexivity.
    - destruct H as (f & _ & _ & M & N & O). split; [|exact (K _ _ _ M)]. split; [exact W'|]. intros o _. rewrite O. reflexivity.
  Qed.
  Lemma range_stays ca w w' pg len ok f : wf w -> (forall e, same_view e (f e)) -> on_range t pg len ok f w = (Ret tt, w') -> stays ca w w'.
  Proof.
    intros W S H. apply (on_range_spec t) in H as (_ & _ & V & O & N & F & G).
    destruct (inplace w w' f (in_pages (pg / P) (npages t len)) W S V N F G) as [A B]; [rewrite O; reflexivity|]. split; [exact A|intros q e E _; exact (B q e E)].
  Qed.

  Lemma ostep_stays c w r w' : wf w -> ostep t c w = (r, w') -> stays (ROs c, r) w w'.
  Proof.
    intros W. destruct c; cbn [ostep]; intros H.
    - rewrite map_file_eq in H. apply os_call_inv in H as (r0 & H & ->). pose proof (mmap_spec t _ _ _ _ _ _ _ _ _ _ H) as Q.
      destruct r0 as [a|e| | |]; try contradiction; [exact (mapped_stays _ _ _ _ _ _ _ _ _ _ _ W H)|apply quiet_stays; assumption].
    - assert (H' : exists addr len' pr sh anon fd off r0, sys_mmap t false addr len' pr sh anon fd off w = (r0, w')).
      { destruct p; unfold os_map_anon in H; apply os_call_inv in H as (r0 & H & ->); do 8 eexists; exact H. }
      clear H. destruct H' as (addr & len' & pr & sh & anon & fd & off & r0 & H). pose proof (mmap_spec t _ _ _ _ _ _ _ _ _ _ H) as Q.
      destruct r0 as [a|e| | |]; try contradiction; [exact (mapped_stays _ _ _ _ _ _ _ _ _ _ _ W H)|apply quiet_stays; assumption].
    - apply no_value_inv in H as (r0 & H & ->). apply os_call_inv in H as (r1 & H & ->).
      pose proof (wfly_munmap t pg len w W) as [W' _]. rewrite H in W'. cbn [snd] in W'. apply (munmap_spec t) in H.
      destruct r1 as [[]|e| | |]; try contradiction; [|apply quiet_stays; assumption]. destruct H as (_ & A & V & O & N & F & G).
      split; [split; [exact W'|intros o _; rewrite O; reflexivity]|]. intros q e E U. cbn in U. rewrite (overlaps_pages t HP _ _ _ A) in U.
      rewrite V, U. exists e. split; [exact E|apply same_view_refl].
    - apply no_value_inv in H as (r0 & H & ->). rewrite protect_eq in H. apply os_call_inv in H as (r1 & H & ->).
      pose proof (on_range_spec t _ _ _ _ _ _ _ H) as Q. destruct r1 as [[]|e| | |]; try contradiction; [|apply quiet_stays; assumption].
      refine (range_stays _ _ _ _ _ _ _ W _ H). intros e. repeat split; auto. intros _. cbn. apply prot_of_r.
    - apply no_value_inv in H as (r0 & H & ->). apply os_call_inv in H as (r1 & H & ->). apply (msync_spec t) in H.
      destruct r1 as [[]|e| | |]; try contradiction; [|apply quiet_stays; assumption]. destruct H as (_ & _ & V & N & F & G & O).
      destruct (inplace w w' (fun e => e) (fun _ => false) W same_view_refl) as [A B]; auto; [intros p; rewrite V; reflexivity|intros o; exact (proj1 (O o))|].
      split; [exact A|intros q e E _; exact (B q e E)].
    - apply no_value_inv in H as (r0 & H & ->). apply os_call_inv in H as (r1 & H & ->).
      pose proof (on_range_spec t _ _ _ _ _ _ _ H) as Q. destruct r1 as [[]|e| | |]; try contradiction; [|apply quiet_stays; assumption].
      refine (range_stays _ _ _ _ _ _ _ W _ H). intros e. destruct (match a with AdvWillNotNeed => _ | _ => _ end); repeat split; auto.
    - apply no_value_inv in H as (r0 & H & ->). apply os_call_inv in H as (r1 & H & ->).
      pose proof (on_range_spec t _ _ _ _ _ _ _ H) as Q. destruct r1 as [[]|e| | |]; try contradiction; [|apply quiet_stays; assumption].
      refine (range_stays _ _ _ _ _ _ _ W _ H). intros e. repeat split; auto.
    - apply no_value_inv in H as (r0 & H & ->). apply os_call_inv in H as (r1 & H & ->).
      pose proof (on_range_spec t _ _ _ _ _ _ _ H) as Q. destruct r1 as [[]|e| | |]; try contradiction; [|apply quiet_stays; assumption].
      refine (range_stays _ _ _ _ _ _ _ W _ H). intros e. repeat split; auto.
    - apply no_value_inv in H as (r0 & H & ->). apply store_effect in H as [[-> ->]|(-> & F & G & N & e & E & Ew & Z & X)]; [apply quiet_stays; [exact W|apply quiet_refl]|].
      destruct X as [(Sh & V & _)|(Sh & O & c & V)].
      + destruct (inplace w w' (fun e => e) (fun _ => false) W same_view_refl) as [A B]; auto; [intros p; rewrite V; reflexivity|intros o; exact (proj1 (Z o))|].
        split; [exact A|intros q e' E' _; exact (B q e' E')].
      + assert (S : same_view e (set_copy c e)) by (repeat split; auto; intros X; congruence). split.
        * split; [|intros o _; exact (proj1 (Z o))]. apply (wf_change _ _ W); rewrite ?F, ?G; auto; [|lia|intros o; left; exact (proj1 (Z o))].
          intros p e' He. rewrite V in He. unfold put in He. destruct (p =? addr / P) eqn:Ep; [|eauto].
          apply Z.eqb_eq in Ep as ->. injection He as <-. left. exists e. auto.
        * intros q e' E' _. rewrite V. unfold put. destruct (q =? addr / P) eqn:Eq; [|exists e'; split; [exact E'|apply same_view_refl]].
          apply Z.eqb_eq in Eq as ->. rewrite E in E'. injection E' as <-. eexists. split; [reflexivity|exact S].
  Qed.

  Lemma umul_twice (len : Z) (x : Z) : umul (E:=error) t 2 len = Ret x -> x = (2 * len) mod 2 ^ t_bits t.
  Proof.
    unfold umul, wrap. destruct (_ && _) eqn:E.
    - intros X. injection X as <-. apply andb_prop in E as [E1 E2]. apply Z.leb_le in E1. apply Z.ltb_lt in E2. symmetry. apply Z.mod_small. split; assumption.
    - destruct (t_checks t); [discriminate|]. intros X. injection X as <-. reflexivity.
  Qed.
  Lemma umul_inv (a b : Z) : (exists x, umul (E:=error) t a b = Ret x) \/ umul (E:=error) t a b = Panic.
  Proof. unfold umul, wrap. destruct (_ && _); [eauto|]. destruct (t_checks t); eauto. Qed.

  (** [unmap_ring] is [unmap] of twice the length, or a panic. *)
  Lemma unmap_ring_as pg len w r w' : no_value (unmap_ring t pg len) w = (r, w') ->
    (r = Panic /\ w' = w) \/ ostep t (OUnmap pg ((2 * len) mod 2 ^ t_bits t)) w = (r, w').
  Proof.
    intros H. apply no_value_inv in H as (r0 & H & ->). unfold unmap_ring, sbind, sout in H.
    destruct (umul_inv 2 len) as [(x & E)|E]; rewrite E in H.
    - right. rewrite <- (umul_twice _ _ E). cbn [ostep]. unfold no_value, sbind, sret. rewrite H. destruct r0; reflexivity.
    - left. injection H as <- <-. auto.
  Qed.

  Lemma two_views_in first n o vm q : two_views first n o vm q =
    if in_pages first (2 * n) q then two_views first n o vm q else vm q.
  Proof.
    destruct (in_pages_cases first (2 * n) q) as [[-> I]|[-> I]]; [reflexivity|]. unfold two_views. rewrite !in_pages_no by lia. reflexivity.
  Qed.
  Lemma npages_multiple n : 0 < n -> npages t (P * n) = n.
  Proof. intros Hn. pose proof (npages_bounds t HP (P * n)). nia. Qed.

  Lemma rostep_law c w r w' q : wf w -> rocall_ok t c -> rostep t plat c w = (r, w') ->
    page_step t q (option_map access_of (w_vm w q)) (c, r) (option_map access_of (w_vm w' q)) /\ stays (c, r) w w'.
  Proof.
    intros W K H. destruct c as [c|clock len|pg len]; cbn [rostep] in H.
    - split; [exact (ostep_page t HP _ _ _ _ q H)|exact (ostep_stays _ _ _ _ W H)].
    - cbn in K. pose proof (wfly_map_ring t plat t_bits_le t_bits_pos HP clock len (proj2 K) w W) as [W' _]. rewrite H in W'. cbn [snd] in W'.
      apply (map_ring_spec t Ht plat clock) in H as [_ H]; [|exact W|exact K].
      destruct r as [a|e| | |]; try contradiction.
      + destruct H as [(n & Hn & -> & Fr & V) A1 A2 A3 A4 A5 A6 A7 A8 A9].
        assert (OV : forall p, overlaps t a (2 * (P * n)) p = in_pages (a / P) (2 * n) p).
        { intros p. rewrite (overlaps_pages t HP _ _ _ A1). replace (2 * (P * n)) with (P * (2 * n)) by lia. rewrite npages_multiple by lia. reflexivity. }
        split.
        * cbn [page_step]. rewrite OV, V, two_views_in. destruct (in_pages_cases (a / P) (2 * n) q) as [[-> I]|[-> I]]; [|reflexivity].
          rewrite (Fr q I). split; [reflexivity|]. unfold two_views.
          destruct (in_pages_cases (a / P) n q) as [[-> _]|[-> J]]; [reflexivity|]. rewrite in_pages_yes by lia. reflexivity.
        * split; [split; [exact W'|intros o Ho; rewrite A7 by exact Ho; reflexivity]|].
          intros p e E _. exists e. split; [|apply same_view_refl]. rewrite V, two_views_in.
          destruct (in_pages_cases (a / P) (2 * n) p) as [[-> I]|[-> I]]; [|exact E]. rewrite (Fr p I) in E. discriminate E.
      + destruct H as (_ & _ & _ & O & V). split.
        * cbn [page_step]. destruct V as [V|(Op & _ & first & L1 & L2)]; [left; rewrite V; reflexivity|].
          destruct (in_pages_cases first (npages t (2 * len)) q) as [[_ I]|[_ I]]; [right; rewrite (L1 q I); auto|left; rewrite (L2 q I); reflexivity].
        * split; [split; [exact W'|intros o Ho; rewrite O by exact Ho; reflexivity]|].
          intros p e0 E _. exists e0. split; [|apply same_view_refl]. destruct V as [V|(_ & _ & first & L1 & L2)]; [rewrite V; exact E|].
          destruct (in_pages_cases first (npages t (2 * len)) p) as [[_ I]|[_ I]]; [rewrite (L1 p I) in E; discriminate E|rewrite (L2 p I); exact E].
      + destruct H as [Q _]. split; [cbn; rewrite (q_vm _ _ Q); reflexivity|exact (quiet_stays _ _ _ W Q)].
    - apply unmap_ring_as in H as [[-> ->]|H]; [split; [reflexivity|apply quiet_stays; [exact W|apply quiet_refl]]|].
      pose proof (ostep_page t HP _ _ _ _ q H) as A. pose proof (ostep_answers t _ _ _ _ H) as B. pose proof (ostep_stays _ _ _ _ W H) as C.
      split; [|destruct r; exact C]. destruct r; exact A.
  Qed.

  Lemma rorun_law h : forall w q, wf w -> Forall (rocall_ok t) h ->
    explained t q (option_map access_of (w_vm w q)) (fst (rorun t plat h w)) (option_map access_of (w_vm (snd (rorun t plat h w)) q)).
  Proof.
    induction h as [|c h IH]; intros w q W K; [reflexivity|]. apply Forall_cons_iff in K as [K1 K2]. cbn [rorun].
    destruct (rostep t plat c w) as [r w1] eqn:E. destruct (rostep_law c w r w1 q W K1 E) as [A [[W1 _] _]].
    specialize (IH w1 q W1 K2). destruct (rorun t plat h w1) as [l w2]. cbn [fst snd explained] in *. eauto.
  Qed.

  Lemma rorun_view h : forall w q e, wf w -> Forall (rocall_ok t) h -> w_vm w q = Some e ->
    (forall ca, In ca (fst (rorun t plat h w)) -> unmaps t q ca = false) ->
    wf (snd (rorun t plat h w)) /\
    o_size (w_obj (snd (rorun t plat h w)) (p_obj e)) = o_size (w_obj w (p_obj e)) /\
    exists e', w_vm (snd (rorun t plat h w)) q = Some e' /\ same_view e e'.
  Proof.
    induction h as [|c h IH]; intros w q e W K V U; [split; [exact W|split; [reflexivity|exists e; split; [exact V|apply same_view_refl]]]|].
    apply Forall_cons_iff in K as [K1 K2]. cbn [rorun] in *.
    destruct (rostep t plat c w) as [r w1] eqn:E. destruct (rostep_law c w r w1 q W K1 E) as [_ [[W1 Z1] S1]].
    destruct (S1 q e V) as (e1 & V1 & X1).
    { apply U. destruct (rorun t plat h w1). left. reflexivity. }
    specialize (IH w1 q e1 W1 K2 V1).
    destruct (rorun t plat h w1) as [l w2]. cbn [fst snd] in *.
    destruct IH as (W2 & Z2 & e2 & V2 & X2); [intros ca I; apply U; right; exact I|].
    split; [exact W2|]. split; [|exists e2; split; [exact V2|exact (same_view_trans _ _ _ X1 X2)]].
    rewrite (proj1 X1) in Z2. rewrite Z2. apply Z1. exact (wf_vm _ W q e V).
  Qed.

  (** The page of a byte. *)
  Lemma load_view w q k e : w_vm w q = Some e -> p_r e = true -> p_copy e = None -> P * p_idx e < o_size (w_obj w (p_obj e)) -> 0 <= k < P ->
    load (E:=error) t w (P * q + k) = Ret (o_data (w_obj w (p_obj e)) (P * p_idx e + k)).
  Proof.
    intros V R C S K. unfold load. replace (P * q + k) with (k + q * P) by lia. rewrite Z.div_add, Z.mod_add, Z.div_small, Z.mod_small by lia. cbn [Z.add].
    rewrite V, R. cbn [negb]. rewrite (proj2 (Z.leb_gt _ _)) by lia. unfold page_byte. rewrite C. reflexivity.
  Qed.

  Lemma mirror_law clock len w pg w1 h i : wf w -> is_usize t len -> map_ring t plat clock len w = (Ret pg, w1) ->
    Forall (rocall_ok t) h -> left_alone t pg (2 * len) (fst (rorun t plat h w1)) -> 0 <= i < len ->
    exists b, load (E:=error) t (snd (rorun t plat h w1)) (pg + i) = Ret b /\ load (E:=error) t (snd (rorun t plat h w1)) (pg + len + i) = Ret b.
  Proof.
    intros W K H F U Hi.
    pose proof (wfly_map_ring t plat t_bits_le t_bits_pos HP clock len (proj2 K) w W) as [W1 _]. rewrite H in W1. cbn [snd] in W1.
    apply (map_ring_spec t Ht plat clock) in H as [_ H]; [|exact W|exact K].
    destruct H as [(n & Hn & -> & Fr & V) A1 A2 A3 A4 A5 A6 A7 A8 A9].
    pose proof (Z.div_mod i P ltac:(lia)) as Di. pose proof (Z.mod_pos_bound i P HP) as Mi.
    assert (Ji : 0 <= i / P < n) by (split; [apply Z.div_pos; lia|apply Z.div_lt_upper_bound; lia]).
    pose proof (Z.div_mod pg P ltac:(lia)) as Dp. rewrite A1, Z.add_0_r in Dp.
    set (f := pg / P) in *. set (j := i / P) in *. set (k := i mod P) in *.
    assert (OV : forall p, f <= p < f + 2 * n -> overlaps t pg (2 * (P * n)) p = true).
    { intros p Hp. rewrite (overlaps_pages t HP _ _ _ A1). replace (2 * (P * n)) with (P * (2 * n)) by lia. rewrite npages_multiple by lia. apply in_pages_yes, Hp. }
    assert (V1 : w_vm w1 (f + j) = Some (entry (w_next w) j PRW true true)).
    { rewrite V. unfold two_views. rewrite in_pages_yes by lia. f_equal. f_equal. lia. }
    assert (V2 : w_vm w1 (f + n + j) = Some (entry (w_next w) j PRW true true)).
    { rewrite V. unfold two_views. rewrite in_pages_no, in_pages_yes by lia. f_equal. f_equal. lia. }
    destruct (rorun_view h w1 _ _ W1 F V1) as (_ & Z & e1 & E1 & X1); [intros ca I; apply (U ca _ I), OV; lia|].
    destruct (rorun_view h w1 _ _ W1 F V2) as (_ & _ & e2 & E2 & X2); [intros ca I; apply (U ca _ I), OV; lia|].
    destruct (rorun t plat h w1) as [l w2]. cbn [fst snd] in *.
    destruct X1 as (B1 & B2 & B3 & B4 & B5), X2 as (C1 & C2 & C3 & C4 & C5). cbn [entry p_obj p_idx p_shared p_r p_copy PRW pr_r] in *.
    exists (o_data (w_obj w2 (w_next w)) (P * j + k)).
    assert (Sz : P * j < o_size (w_obj w2 (w_next w))) by (rewrite Z, A4; nia). split.
    - replace (pg + i) with (P * (f + j) + k) by lia. rewrite (load_view _ _ _ _ E1); auto; rewrite ?B1, ?B2; auto.
    - replace (pg + P * n + i) with (P * (f + n + j) + k) by lia. rewrite (load_view _ _ _ _ E2); auto; rewrite ?C1, ?C2; auto.
  Qed.
End OsRing.
