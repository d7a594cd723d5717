(** The functions of the module [os] on Windows, with rings. *)
From Coq Require Import Lia.
From Verif Require Import Base ErrorModel OsModel OsProofs MapModel MapSpec MapProofs SizeProofs MapOps RingMapModel RingMapSpec WinModel WinSpec WinProofs WinCalls
  OsLayerModel OsLayerSpec OsLayerProofs WinOsModel WinOsSpec WinOsProofs WinOsGrants WinOsRingModel WinOsRingSpec.

Section WinOsRing.
  Variable t : target.
  Hypothesis Ht : good_target t.
  Notation P := (t_page t).
  Let HP : 0 < P.
  Proof. exact (pow2_pos _ (proj1 (proj2 Ht))). Qed.

  Lemma unmapped_table a s s' S n : n_view s a = Some n -> n_view s' = put (n_view s) a None ->
    (forall p, w_vm (n_w s') p = if in_pages (a / P) n p then None else w_vm (n_w s) p) ->
    table t s S -> table t s' (fun q => without a (S q)).
  Proof.
    intros U1 U2 U3 [T1 T2 T3]. unfold without. destruct (T2 a n U1) as [A B].
    assert (IN : forall q, in_pages (a / P) n q = true <-> exists x, S q = Some x /\ wp_base x = Some a).
    { intros q. rewrite <- B, in_pages_iff. pose proof (Z.div_mod a P ltac:(lia)) as D. rewrite A in D. nia. }
    split.
    - intros q. rewrite U3. specialize (IN q). specialize (T1 q). destruct (in_pages (a / P) n q) eqn:I.
      { destruct (proj1 IN eq_refl) as (x & X1 & X2). rewrite X1, X2, Z.eqb_refl. reflexivity. }
      rewrite T1. destruct (S q) as [x|]; [|reflexivity]. destruct (wp_base x) as [b|] eqn:Eb; [|reflexivity].
      destruct (Z.eqb_spec b a) as [->|]; [|reflexivity]. discriminate (proj2 IN (ex_intro _ x (conj eq_refl Eb))).
    - intros b m. rewrite U2. unfold put. destruct (Z.eqb_spec b a) as [->|Nb]; [discriminate|]. intros X.
      destruct (T2 b m X) as [B1 B2]. split; [exact B1|]. intros q. rewrite B2.
      destruct (S q) as [x|]; [|reflexivity]. destruct (wp_base x) as [b'|] eqn:Eb; [|reflexivity].
      destruct (Z.eqb_spec b' a) as [->|]; [|reflexivity].
      split; intros (y & Y1 & Y2); [|discriminate Y1]. injection Y1 as <-. rewrite Eb in Y2. injection Y2 as ->. now elim Nb.
    - intros q x b X1 X2. rewrite U2. unfold put. destruct (S q) as [y|] eqn:Sq; [|discriminate X1].
      destruct (wp_base y) as [b'|] eqn:Eb.
      + destruct (Z.eqb_spec b' a); [discriminate X1|]. injection X1 as <-. rewrite Eb in X2. injection X2 as ->.
        destruct (Z.eqb_spec b a); [contradiction|]. exact (T3 q y b Sq Eb).
      + injection X1 as <-. congruence.
  Qed.

  Lemma calls_kernel s s' l : calls s s' l -> firstn (length (n_log s') - length (n_log s)) (n_log s') = l.
  Proof.
    unfold calls. intros ->. rewrite app_length. replace (length l + length (n_log s) - length (n_log s))%nat with (length l) by lia.
    rewrite firstn_app, Nat.sub_diag, firstn_all. cbn. apply app_nil_r.
  Qed.

  Lemma npages_exact n : npages t (P * n) = n.
  Proof. unfold npages. symmetry. apply Z.div_unique with (P - 1); lia. Qed.

  Lemma ring_table s s' pg n S : 0 < n -> pg mod P = 0 ->
    (forall k, 0 <= k < 2 * n -> exists e, w_vm (n_w s') (pg / P + k) = Some e /\ access_of e = wring_access) ->
    n_view s' pg = Some n -> n_view s' (pg + P * n) = Some n ->
    (forall p, pg / P <= p < pg / P + 2 * n -> w_vm (n_w s) p = None) ->
    (forall p, ~ pg / P <= p < pg / P + 2 * n -> w_vm (n_w s') p = w_vm (n_w s) p) ->
    (forall a, a <> pg -> a <> pg + P * n -> n_view s' a = n_view s a) ->
    n_view s pg = None -> n_view s (pg + P * n) = None ->
    table t s S ->
    table t s' (fun q => if overlaps t pg (P * n) q then Some {| wp_base := Some pg; wp_access := wring_access |}
                         else if overlaps t (pg + P * n) (P * n) q then Some {| wp_base := Some (pg + P * n); wp_access := wring_access |}
                         else S q).
  Proof.
    intros Hn A R V1 V2 F O W N1 N2 [T1 T2 T3].
    assert (A2 : (pg + P * n) mod P = 0) by (rewrite (Z.mul_comm P n), Z.mod_add by lia; exact A).
    pose proof (fun q => overlaps_view t Ht pg (P * n) q A) as OV1. pose proof (fun q => overlaps_view t Ht (pg + P * n) (P * n) q A2) as OV2.
    rewrite npages_exact in OV1, OV2. pose proof (Z.div_mod pg P ltac:(lia)) as D. rewrite A in D.
    assert (IN : forall q, overlaps t pg (P * n) q = true \/ overlaps t (pg + P * n) (P * n) q = true <-> pg / P <= q < pg / P + 2 * n).
    { intros q. rewrite OV1, OV2. split; [intros [H|H]; nia|]. intros H. destruct (Z.lt_ge_cases (P * q) (pg + P * n)); [left|right]; nia. }
    assert (SN : forall q, pg / P <= q < pg / P + 2 * n -> S q = None).
    { intros q Q. specialize (T1 q). rewrite (F q Q) in T1. destruct (S q); [discriminate T1|reflexivity]. }
    assert (RN : forall q, pg / P <= q < pg / P + 2 * n -> option_map access_of (w_vm (n_w s') q) = Some wring_access).
    { intros q Q. destruct (R (q - pg / P) ltac:(lia)) as (e & E1 & E2). replace (pg / P + (q - pg / P)) with q in E1 by lia. rewrite E1. cbn. f_equal. exact E2. }
    assert (NP : pg + P * n <> pg) by nia.
    split.
    - intros q. destruct (overlaps t pg (P * n) q) eqn:Q1; [rewrite RN by (apply IN; auto); reflexivity|].
      destruct (overlaps t (pg + P * n) (P * n) q) eqn:Q2; [rewrite RN by (apply IN; auto); reflexivity|].
      rewrite O; [apply T1|]. intros I. apply IN in I. destruct I; congruence.
    - intros b m X. destruct (Z.eq_dec b pg) as [->|Nb1]; [|destruct (Z.eq_dec b (pg + P * n)) as [->|Nb2]].
      + rewrite V1 in X. injection X as <-. split; [exact A|]. intros q. rewrite <- OV1.
        destruct (overlaps t pg (P * n) q) eqn:Q1; [split; [intros _; eexists; split; reflexivity|reflexivity]|].
        split; [discriminate|]. intros (x & X1 & X2). destruct (overlaps t (pg + P * n) (P * n) q).
        * injection X1 as <-. cbn in X2. injection X2 as X2. now elim NP.
        * destruct (T3 q x pg X1 X2) as (m & X). congruence.
      + rewrite V2 in X. injection X as <-. split; [exact A2|]. intros q. rewrite <- OV2.
        destruct (overlaps t pg (P * n) q) eqn:Q1.
        * split; [intros Q2; apply OV1 in Q1; apply OV2 in Q2; lia|]. intros (x & X1 & X2). injection X1 as <-. cbn in X2. injection X2 as X2. now elim NP.
        * destruct (overlaps t (pg + P * n) (P * n) q) eqn:Q2; [split; [intros _; eexists; split; reflexivity|reflexivity]|].
          split; [discriminate|]. intros (x & X1 & X2). destruct (T3 q x _ X1 X2) as (m & X). congruence.
      + rewrite (W b Nb1 Nb2) in X. destruct (T2 b m X) as [B1 B2]. split; [exact B1|]. intros q. rewrite B2.
        destruct (overlaps t pg (P * n) q) eqn:Q1; [|destruct (overlaps t (pg + P * n) (P * n) q) eqn:Q2; [|reflexivity]].
        * rewrite SN by (apply IN; auto). split; intros (x & X1 & X2); [discriminate X1|]. injection X1 as <-. cbn in X2. congruence.
        * rewrite SN by (apply IN; auto). split; intros (x & X1 & X2); [discriminate X1|]. injection X1 as <-. cbn in X2. congruence.
    - intros q x b X1 X2. destruct (overlaps t pg (P * n) q); [|destruct (overlaps t (pg + P * n) (P * n) q)].
      + injection X1 as <-. cbn in X2. injection X2 as <-. eauto.
      + injection X1 as <-. cbn in X2. injection X2 as <-. eauto.
      + destruct (T3 q x b X1 X2) as (m & X). exists m. rewrite W; [exact X| |]; congruence.
  Qed.

  Lemma map_ring_table len s r s' S : is_usize t len -> win_map_ring t len s = (r, s') -> table t s S ->
    let e := {| ev_call := WMapRing len; ev_answer := r; ev_kernel := firstn (length (n_log s') - length (n_log s)) (n_log s') |} in
    clean e -> table t s' (fun q => wrpage_after t q (S q) e).
  Proof.
    intros Hl H T e C. subst e. unfold clean in C. cbn [ev_call ev_kernel] in C. unfold wrpage_after. cbn [ev_call ev_answer].
    destruct (win_map_ring_spec t Ht len s r s' Hl H) as (l & L & _ & _ & M). rewrite (calls_kernel _ _ _ L) in C.
    destruct r as [pg|x| | |]; try contradiction.
    - destruct M as ((n & -> & [W1 W2 W3 W4 W5 W6 [W7 W8] W9 W10 W11 W12]) & _).
      destruct W11 as [W11|(B1 & B2 & B3 & [B4 B5] & _)]; [contradiction|].
      apply (ring_table s s' pg n S); auto.
      + exact (aligned_page t Ht _ W2).
      + intros k K. eexists. split; [exact (W6 k K)|reflexivity].
    - destruct M as [[M|M] _]; [contradiction|]. exact (same_table t s s' S M T).
    - destruct M as (_ & _ & ->). exact T.
  Qed.

  Lemma unmap_ring_table pg len s r s' S : wno_value (win_unmap_ring t pg len) s = (r, s') -> table t s S ->
    let e := {| ev_call := WUnmapRing pg len; ev_answer := r; ev_kernel := firstn (length (n_log s') - length (n_log s)) (n_log s') |} in
    table t s' (fun q => wrpage_after t q (S q) e).
  Proof.
    intros H T e. subst e. unfold wrpage_after. cbn [ev_call ev_answer ev_kernel].
    apply wno_value_inv in H as (r0 & H & ->). unfold win_unmap_ring in H.
    change (ptr_add t pg len) with ((pg + len) mod 2 ^ t_bits t) in H.
    apply wbind_run in H as [([] & s1 & E1 & H)|[(x & E1 & ->)|[[E1 ->]|[[E1 ->]|[E1 ->]]]]];
      apply win_call_run in E1; [|destruct E1 as (y & E1 & ->)| | |]; apply unmap_view_spec in E1 as [L1 E1]; try contradiction.
    2:{ exact (same_table t s s' S (wq_space _ _ E1) T). }
    destruct E1 as (n & U1 & U2 & U3 & _). pose proof (unmapped_table _ _ _ _ _ U1 U2 U3 T) as T1.
    apply no_result_run in H as (r3 & E3 & Er). apply unmap_view_spec in E3 as [L3 E3].
    assert (K : last_done (firstn (length (n_log s') - length (n_log s)) (n_log s')) = ok r3).
    { rewrite L3, L1. cbn [length]. replace (Datatypes.S (Datatypes.S (length (n_log s))) - length (n_log s))%nat with 2%nat by lia. reflexivity. }
    rewrite K. destruct r3 as [[]|x| | |]; try contradiction; subst r0; cbn [ok].
    - destruct E3 as (m & V1 & V2 & V3 & _). exact (unmapped_table _ _ _ _ _ V1 V2 V3 T1).
    - exact (same_table t s1 s' _ (wq_space _ _ E3) T1).
  Qed.

  Lemma wrrun_table h : forall s S, Forall (wrcall_ok t) h -> table t s S -> Forall clean (fst (wrrun t h s)) ->
    table t (snd (wrrun t h s)) (fun q => fold_left (wrpage_after t q) (fst (wrrun t h s)) (S q)).
  Proof.
    induction h as [|c h IH]; intros s S F T C; [exact T|]. apply Forall_cons_iff in F as [F1 F2]. cbn [wrrun] in *.
    destruct (wrstep t c s) as [r s1] eqn:E. specialize (IH s1). destruct (wrrun t h s1) as [l s2]. cbn [fst snd] in *.
    apply Forall_cons_iff in C as [C1 C2]. cbn [fold_left]. apply (IH (fun q => wrpage_after t q (S q) _)); [exact F2| |exact C2].
    destruct c as [file c|len|pg len]; cbn [wrstep wrcall_ok] in *.
    - exact (wostep_table t Ht file c s r s1 S F1 E T).
    - exact (map_ring_table len s r s1 S F1 E T C1).
    - exact (unmap_ring_table pg len s r s1 S E T).
  Qed.

  (** ** Answers *)
  Lemma map_ring_answers len s r s' : is_usize t len -> win_map_ring t len s = (r, s') ->
    (forall h, n_sec s' h = n_sec s h) /\ (forall fd, w_fd (n_w s') fd = w_fd (n_w s) fd) /\ (forall path, w_fs (n_w s') path = w_fs (n_w s) path) /\
    match r with
    | Ret _ => True
    | Err e => ring_stage (e_op e) /\ exists code, raw_os_error e = Some code
    | Panic => t_checks t = true /\ 2 ^ t_bits t <= 2 * len /\ s' = s
    | _ => False
    end.
  Proof.
    intros Hl H. destruct (win_map_ring_spec t Ht len s r s' Hl H) as (l & _ & _ & [A B C _ _] & M).
    do 3 (split; [assumption|]). destruct r as [a|e| | |]; try contradiction; [exact Logic.I| |exact M].
    destruct M as (_ & op & x & Op & -> & _). split; [exact Op|]. eexists. reflexivity.
  Qed.
  Lemma unmap_ring_answers pg len s r s' : win_unmap_ring t pg len s = (r, s') ->
    (forall h, n_sec s' h = n_sec s h) /\ (forall fd, w_fd (n_w s') fd = w_fd (n_w s) fd) /\ (forall path, w_fs (n_w s') path = w_fs (n_w s) path) /\
    (forall o, w_obj (n_w s') o = w_obj (n_w s) o) /\
    match r with
    | Ret _ => n_view s ((pg + len) mod 2 ^ t_bits t) <> None
    | Err e => e_op e = RingDeallocate /\ (exists code, raw_os_error e = Some code) /\ same_space s s'
    | _ => False
    end.
  Proof.
    intros H. unfold win_unmap_ring in H. change (ptr_add t pg len) with ((pg + len) mod 2 ^ t_bits t) in H.
    apply wbind_run in H as [([] & s1 & E1 & H)|[(x & E1 & ->)|[[E1 ->]|[[E1 ->]|[E1 ->]]]]];
      apply win_call_run in E1; [|destruct E1 as (y & E1 & ->)| | |]; apply unmap_view_spec in E1 as [L1 E1]; try contradiction.
    2:{ destruct E1 as [[Q1 Q2 Q3 Q4 Q5] Q6 Q7 Q8 Q9]. do 4 (split; [intros; congruence|]).
        split; [reflexivity|]. split; [eexists; reflexivity|]. split; intros; congruence. }
    destruct E1 as (n & U1 & U2 & U3 & U4 & U5 & U6 & U7 & U8 & U9 & U10).
    apply no_result_run in H as (r3 & E3 & Er). apply unmap_view_spec in E3 as [_ E3].
    destruct r3 as [[]|x| | |]; try contradiction; subst r.
    - destruct E3 as (m & V1 & V2 & V3 & V4 & V5 & V6 & V7 & V8 & V9 & V10). do 4 (split; [intros; congruence|]). congruence.
    - destruct E3 as [[Q1 Q2 Q3 Q4 Q5] Q6 Q7 Q8 Q9]. do 4 (split; [intros; congruence|]). congruence.
  Qed.
  Lemma wunmap_ring_iff pg len s a o : w_orc (n_w s) = Grant a :: o ->
    (exists s', win_unmap_ring t pg len s = (Ret tt, s')) <-> n_view s ((pg + len) mod 2 ^ t_bits t) <> None.
  Proof.
    intros Ho. split.
    - intros (s' & H). apply unmap_ring_answers in H as (_ & _ & _ & _ & H). exact H.
    - intros V. destruct (win_unmap_ring t pg len s) as [r s'] eqn:H. unfold win_unmap_ring in H.
      change (ptr_add t pg len) with ((pg + len) mod 2 ^ t_bits t) in H.
      apply wbind_run in H as [([] & s1 & E1 & H)|[(x & E1 & ->)|[[E1 ->]|[[E1 ->]|[E1 ->]]]]];
        apply win_call_run in E1; [|destruct E1 as (y & E1 & _)| | |].
      + apply no_result_run in H as (r3 & E3 & Er). apply unmap_view_spec in E3 as [_ E3].
        destruct r3 as [[]|x| | |]; try contradiction; subst r; eauto.
      + exfalso. unfold unmap_view in E1. rewrite (call_grant _ _ _ _ _ Ho) in E1. cbn [after_grant with_w with_env n_view] in E1.
        destruct (n_view s ((pg + len) mod 2 ^ t_bits t)); [discriminate E1|]. now elim V.
      + apply unmap_view_spec in E1 as [_ []].
      + apply unmap_view_spec in E1 as [_ []].
      + apply unmap_view_spec in E1 as [_ []].
  Qed.
End WinOsRing.
