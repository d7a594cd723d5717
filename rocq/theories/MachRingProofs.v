(** Proofs for MachRingSpec.v. *)
From Coq Require Import Lia.
From Verif Require Import Base ErrorModel SizeModel SizeProofs OsModel OsProofs MapModel MapSpec MapOps MapCreate RingMapModel RingMapSpec MirrorProofs ProcFrame
  MachModel MachSpec MachProofs MachClaims MachProcProofs
  OsLayerModel OsLayerSpec OsLayerProofs OsRingModel OsRingSpec OsRingProofs MachRingModel MachRingSpec.

Section MachRing.
  Variable t : target.
  Hypothesis Ht : good_target t.
  Notation P := (t_page t).
  Let HP : 0 < P := pow2_pos _ (proj1 (proj2 Ht)).

  Definition mstays (ca : mocall * out error Z) (w w' : world) : Prop :=
    goes_on w w' /\ forall q e, w_vm w q = Some e -> munmaps t q ca = false -> exists e', w_vm w' q = Some e' /\ same_view e e'.
  Lemma quiet_mstays ca w w' : wf w -> quiet w w' -> mstays ca w w'.
  Proof.
    intros W Q. split; [exact (quiet_goes _ _ W Q)|]. intros q e E _. rewrite (q_vm _ _ Q). exists e. split; [exact E|apply same_view_refl].
  Qed.

  Lemma overlaps_bytes pg l q : 0 < l -> overlaps t pg l q = in_pages (pg / P) (npages t (pg mod P + l)) q.
  Proof.
    intros Hl. pose proof (Z.div_mod pg P ltac:(lia)) as D. pose proof (Z.mod_pos_bound pg P HP) as M. pose proof (npages_bounds t HP (pg mod P + l)) as B.
    set (f := pg / P) in *. set (n := npages t (pg mod P + l)) in *. unfold overlaps.
    destruct (in_pages_cases f n q) as [[-> I]|[-> I]].
    - apply andb_true_intro. split; apply Z.ltb_lt; nia.
    - apply andb_false_iff. rewrite !Z.ltb_ge. destruct (Z.lt_ge_cases q f); [left; nia|right; nia].
  Qed.

  Lemma munmap_law pg len s r s' : mbind (mach_unmap_ring t pg len) (fun _ => mret 0) s = (r, s') ->
    match r with
    | Ret _ => (forall q, w_vm (mc_w s') q = if reaches t pg len q then None else w_vm (mc_w s) q) /\
        w_obj (mc_w s') = w_obj (mc_w s) /\ w_next (mc_w s') = w_next (mc_w s) /\ w_fd (mc_w s') = w_fd (mc_w s) /\ w_fs (mc_w s') = w_fs (mc_w s)
    | Err _ | Panic => quiet (mc_w s) (mc_w s')
    | _ => False
    end.
  Proof.
    unfold mach_unmap_ring, mbind, mout, mret. destruct (umul_inv t 2 len) as [(x & E)|E]; rewrite E.
    2:{ intros H. injection H as <- <-. apply quiet_refl. }
    pose proof (umul_twice t _ _ E) as X. unfold kern_call, on_world. destruct (vm_deallocate t pg x (mc_w s)) as [r0 w0] eqn:D.
    unfold vm_deallocate in D. apply ask_inv in D as [(e & -> & Q)|(a & o & Ho & D)].
    - intros H. injection H as <- <-. exact Q.
    - destruct (Z.eqb_spec x 0) as [Z0|Z0]; injection D as <- <-; intros H; injection H as <- <-; cbn;
        (split; [|repeat split; reflexivity]); intros q; unfold reaches; rewrite <- X.
      + rewrite Z0. reflexivity.
      + assert (B0 : 0 < 2 ^ t_bits t) by (apply Z.pow_pos_nonneg; [lia|pose proof (t_bits_pos t Ht); lia]).
        assert (x0 : 0 < x) by (pose proof (Z.mod_pos_bound (2 * len) _ B0) as Bx; rewrite <- X in Bx; lia).
        rewrite (proj2 (Z.ltb_lt 0 x) x0), (overlaps_bytes pg x q x0). reflexivity.
  Qed.

  Lemma mostep_law c s r s' q : wf (mc_w s) -> mocall_ok t c -> mostep t c s = (r, s') ->
    mpage_step t q (option_map access_of (w_vm (mc_w s) q)) (c, r) (option_map access_of (w_vm (mc_w s') q)) /\ mstays (c, r) (mc_w s) (mc_w s').
  Proof.
    intros W K H. destruct c as [c|len|pg len]; cbn [mostep] in H.
    - unfold on_world in H. destruct (ostep t c (mc_w s)) as [r0 w0] eqn:E. injection H as <- <-. cbn [mc_w].
      split; [exact (ostep_page t HP _ _ _ _ q E)|]. destruct (ostep_stays t Ht _ _ _ _ W E) as [A B]. split; [exact A|].
      intros p e V U. apply (B p e V). destruct c; exact U.
    - destruct K as ((n & En) & U & L). assert (En' : len = P * n) by lia. clear En. subst len. unfold is_usize in U.
      destruct (Z.lt_ge_cases (P * n) (2 ^ (t_bits t - 1))) as [Lt|Ge].
      2:{ destruct L as [L|L]; [|lia]. pose proof (bits_half t Ht) as [HB _]. unfold mach_map_ring, mbind in H. cbn [mout] in H.
          unfold umul, wrap in H. rewrite L, (proj2 (Z.ltb_ge (2 * (P * n)) _)), Bool.andb_false_r in H by lia. injection H as <- <-.
          split; [reflexivity|apply quiet_mstays; [exact W|apply quiet_refl]]. }
      pose proof (map_ring_grown t Ht (P * n) s (proj1 U)) as G. rewrite H in G. cbn [snd] in G.
      apply (mach_map_ring_spec t Ht) in H as (_ & (_ & _ & NX & O) & H); [|lia].
      pose proof (grown_wf _ _ G W) as W'.
      assert (GO : goes_on (mc_w s) (mc_w s')) by (split; [exact W'|intros o Ho; rewrite O by exact Ho; reflexivity]).
      destruct r as [a|e| | |]; try contradiction.
      + destruct H as [Hn A1 A2 A3 Fr V A4 A5 A6].
        assert (OV : forall p, overlaps t a (2 * (P * n)) p = in_pages (a / P) (2 * n) p).
        { intros p. rewrite (overlaps_pages t HP _ _ _ A1). replace (2 * (P * n)) with (P * (2 * n)) by lia. rewrite (npages_multiple t Ht) by lia. reflexivity. }
        split.
        * cbn [mpage_step]. rewrite OV, V, two_views_in. destruct (in_pages_cases (a / P) (2 * n) q) as [[-> I]|[-> I]]; [|reflexivity].
          rewrite (Fr q I). split; [reflexivity|]. unfold two_views.
          destruct (in_pages_cases (a / P) n q) as [[-> _]|[-> J]]; [reflexivity|]. rewrite in_pages_yes by lia. reflexivity.
        * split; [exact GO|]. intros p e E _. exists e. split; [|apply same_view_refl]. rewrite V, two_views_in.
          destruct (in_pages_cases (a / P) (2 * n) p) as [[-> I]|[-> I]]; [|exact E]. rewrite (Fr p I) in E. discriminate E.
      + destruct H as (k & (K4 & c & ->) & V & _). split.
        * cbn [mpage_step]. destruct V as [V|(K0 & _ & first & L1 & L2)]; [left; rewrite V; reflexivity|].
          destruct (in_pages_cases first (npages t (2 * (P * n))) q) as [[_ I]|[_ I]]; [right; rewrite (L1 q I)|left; rewrite (L2 q I); reflexivity].
          split; [reflexivity|]. cbn. destruct k as [|[|[|[|k]]]]; try lia; auto.
        * split; [exact GO|]. intros p e0 E _. exists e0. split; [|apply same_view_refl].
          destruct V as [V|(_ & _ & first & L1 & L2)]; [rewrite V; exact E|].
          destruct (in_pages_cases first (npages t (2 * (P * n))) p) as [[_ I]|[_ I]]; [rewrite (L1 p I) in E; discriminate E|rewrite (L2 p I); exact E].
    - apply munmap_law in H. destruct r as [x|e| | |]; try contradiction.
      + destruct H as (V & O & N & F & S). split; [cbn [mpage_step]; rewrite V; destruct (reaches t pg len q); reflexivity|].
        split; [split; [|intros o _; rewrite O; reflexivity]|].
        * apply (wf_change _ _ W); rewrite ?F, ?S, ?O; auto; [|lia]. intros p e He. rewrite V in He. destruct (reaches t pg len p); [discriminate He|eauto].
        * intros p e E U. cbn [munmaps] in U. rewrite V, U. exists e. split; [exact E|apply same_view_refl].
      + split; [cbn; rewrite (q_vm _ _ H); reflexivity|exact (quiet_mstays _ _ _ W H)].
      + split; [cbn; rewrite (q_vm _ _ H); reflexivity|exact (quiet_mstays _ _ _ W H)].
  Qed.

  Lemma morun_law h : forall s q, wf (mc_w s) -> Forall (mocall_ok t) h ->
    mexplained t q (option_map access_of (w_vm (mc_w s) q)) (fst (morun t h s)) (option_map access_of (w_vm (mc_w (snd (morun t h s))) q)).
  Proof.
    induction h as [|c h IH]; intros s q W K; [reflexivity|]. apply Forall_cons_iff in K as [K1 K2]. cbn [morun].
    destruct (mostep t c s) as [r s1] eqn:E. destruct (mostep_law c s r s1 q W K1 E) as [A [[W1 _] _]].
    specialize (IH s1 q W1 K2). destruct (morun t h s1) as [l s2]. cbn [fst snd mexplained] in *. eauto.
  Qed.

  Lemma morun_view h : forall s q e, wf (mc_w s) -> Forall (mocall_ok t) h -> w_vm (mc_w s) q = Some e ->
    (forall ca, In ca (fst (morun t h s)) -> munmaps t q ca = false) ->
    o_size (w_obj (mc_w (snd (morun t h s))) (p_obj e)) = o_size (w_obj (mc_w s) (p_obj e)) /\
    exists e', w_vm (mc_w (snd (morun t h s))) q = Some e' /\ same_view e e'.
  Proof.
    induction h as [|c h IH]; intros s q e W K V U; [split; [reflexivity|exists e; split; [exact V|apply same_view_refl]]|].
    apply Forall_cons_iff in K as [K1 K2]. cbn [morun] in *.
    destruct (mostep t c s) as [r s1] eqn:E. destruct (mostep_law c s r s1 q W K1 E) as [_ [[W1 Z1] S1]].
    destruct (S1 q e V) as (e1 & V1 & X1).
    { apply U. destruct (morun t h s1). left. reflexivity. }
    specialize (IH s1 q e1 W1 K2 V1).
    destruct (morun t h s1) as [l s2]. cbn [fst snd] in *.
    destruct IH as (Z2 & e2 & V2 & X2); [intros ca I; apply U; right; exact I|].
    split; [|exists e2; split; [exact V2|exact (same_view_trans _ _ _ X1 X2)]].
    rewrite (proj1 X1) in Z2. rewrite Z2. apply Z1. exact (wf_vm _ W q e V).
  Qed.

  Lemma mmirror_law len s pg s1 h i : wf (mc_w s) -> mocall_ok t (MMap len) -> mach_map_ring t len s = (Ret pg, s1) ->
    Forall (mocall_ok t) h -> mleft_alone t pg (2 * len) (fst (morun t h s1)) -> 0 <= i < len ->
    exists b, load (E:=error) t (mc_w (snd (morun t h s1))) (pg + i) = Ret b /\ load (E:=error) t (mc_w (snd (morun t h s1))) (pg + len + i) = Ret b.
  Proof.
    intros W K H F U Hi.
    destruct (mostep_law (MMap len) s (Ret pg) s1 0 W K H) as [_ [[W1 _] _]].
    destruct K as ((n & En) & Us & L). assert (En' : len = P * n) by lia. clear En. subst len. unfold is_usize in Us.
    assert (Lt : P * n < 2 ^ (t_bits t - 1)).
    { destruct L as [L|L]; [|exact L]. destruct (Z.lt_ge_cases (P * n) (2 ^ (t_bits t - 1))) as [Lt|Ge]; [exact Lt|].
      pose proof (bits_half t Ht) as [HB _]. unfold mach_map_ring, mbind in H. cbn [mout] in H.
      unfold umul, wrap in H. rewrite L, (proj2 (Z.ltb_ge (2 * (P * n)) _)), Bool.andb_false_r in H by lia. discriminate H. }
    apply (mach_map_ring_spec t Ht) in H as (_ & _ & H); [|lia]. destruct H as [Hn A1 A2 A3 Fr V A4 A5 A6].
    pose proof (Z.div_mod i P ltac:(lia)) as Di. pose proof (Z.mod_pos_bound i P HP) as Mi.
    assert (Ji : 0 <= i / P < n) by (split; [apply Z.div_pos; lia|apply Z.div_lt_upper_bound; lia]).
    pose proof (Z.div_mod pg P ltac:(lia)) as Dp. rewrite A1, Z.add_0_r in Dp.
    set (f := pg / P) in *. set (j := i / P) in *. set (k := i mod P) in *. set (o := w_next (mc_w s) + 1) in *.
    assert (OV : forall p, f <= p < f + 2 * n -> overlaps t pg (2 * (P * n)) p = true).
    { intros p Hp. rewrite (overlaps_pages t HP _ _ _ A1). replace (2 * (P * n)) with (P * (2 * n)) by lia. rewrite (npages_multiple t Ht) by lia. apply in_pages_yes, Hp. }
    assert (V1 : w_vm (mc_w s1) (f + j) = Some (entry o j PRW true true)).
    { rewrite V. unfold two_views. rewrite in_pages_yes by lia. f_equal. f_equal. lia. }
    assert (V2 : w_vm (mc_w s1) (f + n + j) = Some (entry o j PRW true true)).
    { rewrite V. unfold two_views. rewrite in_pages_no, in_pages_yes by lia. f_equal. f_equal. lia. }
    destruct (morun_view h s1 _ _ W1 F V1) as (Z & e1 & E1 & X1); [intros ca I; apply (U ca _ I), OV; lia|].
    destruct (morun_view h s1 _ _ W1 F V2) as (_ & e2 & E2 & X2); [intros ca I; apply (U ca _ I), OV; lia|].
    destruct (morun t h s1) as [l s2]. cbn [fst snd] in *.
    destruct X1 as (B1 & B2 & B3 & B4 & B5), X2 as (C1 & C2 & C3 & C4 & C5). cbn [entry p_obj p_idx p_shared p_r p_copy PRW pr_r] in *.
    exists (o_data (w_obj (mc_w s2) o) (P * j + k)).
    assert (Sz : P * j < o_size (w_obj (mc_w s2) o)) by (rewrite Z, A4; nia). split.
    - replace (pg + i) with (P * (f + j) + k) by lia. rewrite (load_view t Ht _ _ _ _ E1); auto; rewrite ?B1, ?B2; auto.
    - replace (pg + P * n + i) with (P * (f + n + j) + k) by lia. rewrite (load_view t Ht _ _ _ _ E2); auto; rewrite ?C1, ?C2; auto.
  Qed.
End MachRing.
