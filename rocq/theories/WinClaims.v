(** Lemmas behind the Windows theorems: unmap, rings from creation to drop. *)
From Coq Require Import Lia.
From Verif Require Import Base Spec ErrorModel SizeModel OsModel MapModel MapSpec RingMapModel RingMapSpec SizeProofs OsProofs
  MapProofs MirrorProofs RingMapClaims WinModel WinSpec WinProofs.

Section Win.
  Variable t : target.
  Hypothesis Ht : good_target t.
  Notation P := (t_page t).
  Notation G := (t_alloc t).
  Let HP : 0 < P.
  Proof. exact (pow2_pos _ (proj1 (proj2 Ht))). Qed.
  Let HG : 0 < G.
  Proof. exact (pow2_pos _ (proj1 (proj2 (proj2 Ht)))). Qed.

  (** ** unmap *)
  Lemma win_unmap_spec pg len s r s' : win_unmap t pg len s = (r, s') ->
    match r with
    | Ret _ => calls s s' [(WUnmap pg, false)] /\ same_space s s'
    | Err e => calls s s' [(WUnmap pg, true)] /\ view_removed t s s' pg /\ exists c, e = last_os_error Unmap c
    | _ => False
    end.
  Proof.
    unfold win_unmap. destruct (unmap_view t pg s) as [r0 s0] eqn:E. intros H. apply unmap_view_spec in E as [L E].
    destruct r0 as [[]|e| | |]; try contradiction; injection H as <- <-.
    - split; [exact L|]. split; [|eauto]. destruct E as (n & A & B & C & D & _). exists n. split; [exact A|].
      split; [intros p; rewrite C; unfold in_pages; reflexivity|].
      split; [intros a; rewrite B; reflexivity|intros a; rewrite D; reflexivity].
    - split; [exact L|exact (wq_space _ _ E)].
  Qed.

  (** ** unmap_ring *)
  Lemma win_unmap_ring_spec pg n s r s' : 0 < n -> pg mod P = 0 -> 0 <= pg -> pg + P * n < 2 ^ t_bits t ->
    n_view s pg = Some n -> n_view s (pg + P * n) = Some n ->
    win_unmap_ring t pg (P * n) s = (r, s') ->
    rest s s' /\ (forall a, n_resv s' a = n_resv s a) /\
    match r with
    | Ret _ => exists b, calls s s' [(WUnmap pg, b); (WUnmap (pg + P * n), true)] /\
        (forall p, w_vm (n_w s') p =
           if in_pages (pg / P + n) n p || (b && in_pages (pg / P) n p) then None else w_vm (n_w s) p) /\
        (forall a, n_view s' a = if (a =? pg + P * n) || (b && (a =? pg)) then None else n_view s a)
    | Err e => calls s s' [(WUnmap (pg + P * n), false)] /\ same_space s s' /\ exists c, e = last_os_error RingDeallocate c
    | _ => False
    end.
  Proof.
    intros Hn Hal H0 Hb V1 V2 H. unfold win_unmap_ring in H.
    assert (PA : ptr_add t pg (P * n) = pg + P * n). { unfold ptr_add, as_usize. apply Z.mod_small. nia. }
    rewrite PA in H. assert (Eh : (pg + P * n) / P = pg / P + n) by (rewrite (Z.mul_comm P n), Z.div_add by lia; reflexivity).
    apply wbind_run in H as [([] & s1 & E1 & H)|[(e & E1 & ->)|[[E1 ->]|[[E1 ->]|[E1 ->]]]]];
      apply win_call_run in E1; [|destruct E1 as (x & E1 & ->)| | |];
      pose proof (unmap_rest t _ _ _ _ E1) as R1; apply unmap_view_spec in E1 as [L1 E1]; try contradiction.
    2:{ destruct (wq_space _ _ E1) as [S1 S2 S3]. split; [exact R1|]. split; [exact S3|]. split; [exact L1|]. split; [split; assumption|eauto]. }
    apply no_result_run in H as (r2 & E2 & Er).
    pose proof (unmap_rest t _ _ _ _ E2) as R2; apply unmap_view_spec in E2 as [L2 E2].
    destruct E1 as (n1 & A1 & A2 & A3 & A4 & _). rewrite V2 in A1. injection A1 as <-. rewrite Eh in A3.
    split; [exact (rest_trans _ _ _ R1 R2)|].
    assert (N : pg <> pg + P * n) by nia.
    destruct r2 as [[]|e| | |]; try contradiction; subst r.
    - destruct E2 as (n2 & B1 & B2 & B3 & B4 & _). rewrite A2, put_other, V1 in B1 by exact N. injection B1 as <-.
      split; [intros a; congruence|]. exists true. split; [unfold calls; rewrite L2, L1; reflexivity|]. split.
      + intros p. rewrite B3, A3. cbn [andb]. destruct (in_pages (pg / P) n p), (in_pages (pg / P + n) n p); reflexivity.
      + intros a. rewrite B2, A2. unfold put. cbn [andb]. destruct (a =? pg), (a =? pg + P * n); reflexivity.
    - destruct E2 as [[Q1 _ _ _ _] _ Q2 Q3 _]. split; [intros a; congruence|]. exists false.
      split; [unfold calls; rewrite L2, L1; reflexivity|]. split.
      + intros p. rewrite Q1, A3. rewrite orb_false_r. reflexivity.
      + intros a. rewrite Q2, A2. unfold put. rewrite orb_false_r. reflexivity.
  Qed.

  (** ** Rings *)
  Lemma win_ring_new_spec hint s a s1 : is_usize t hint -> win_ring_new t hint s = (Ret a, s1) ->
    is_ceil G hint (ra_len a) /\ win_map_ring t (ra_len a) s = (Ret (ra_ptr a), s1) /\ is_usize t (ra_len a).
  Proof.
    intros Hh H. unfold win_ring_new in H. pose proof (round_cases t Ht hint Hh) as RC.
    apply wbind_run in H as [(len & s0 & E0 & H)|[(e & E0 & E)|[[E0 E]|[[E0 E]|[E0 E]]]]]; try discriminate E.
    unfold wout in E0. assert (Es : s0 = s /\ size_round (E:=error) t (size_alloc t) hint = Ret len) by (injection E0; auto).
    destruct Es as [-> Er]. rewrite Er in RC. destruct RC as [U C].
    apply wbind_run in H as [(pg & s2 & E1 & H)|[(e & E1 & E)|[[E1 E]|[[E1 E]|[E1 E]]]]]; try discriminate E.
    assert (GH : a = {| ra_ptr := pg; ra_len := len |} /\ s1 = s2) by (injection H; auto). destruct GH as [-> ->]. cbn.
    split; [|split; assumption]. apply C.
    destruct (win_map_ring_spec t Ht len s _ _ U E1) as (l & _ & _ & _ & (n & -> & W) & _).
    pose proof (wr_n _ _ _ _ _ _ W). nia.
  Qed.

  Lemma win_life hint l s a s1 : known_objects s -> is_usize t hint -> win_ring_new t hint s = (Ret a, s1) ->
    Forall (fun x => 0 <= fst x < 2 * ra_len a) l ->
    (exists k, calls s s1 k /\ failed_release k) \/
    let '(r2, w2) := put_all t (ra_ptr a) l (n_w s1) in
    let '(r3, s3) := win_ring_drop t a (with_w s1 w2) in
    r2 = Ret tt /\ r3 = Ret tt /\ same_rest s s3 /\
    exists k, calls s1 s3 k /\ (failed_release k \/ same_space s s3).
  Proof.
    intros K Hh H F. destruct (win_ring_new_spec _ _ _ _ Hh H) as (C & E & U).
    destruct (win_map_ring_spec t Ht _ _ _ _ U E) as (k & Lk & _ & [R1 R2 R3 R4 R5] & (n & En & W) & _).
    pose proof W as [W1 W2 W3 W4 W5 W6 [W7 W8] W9 W10 [W11|(W11 & W12 & W13 & [W15 W16] & W14)] W17]; [left; eauto|].
    right.
    assert (RG : ringed t (n_w s1) (ra_ptr a) n (w_next (n_w s)) (fun _ => 0)).
    { split.
      - exact W1.
      - exact (aligned_page t Ht _ W2).
      - intros j Hj. eexists. split; [exact (W6 j Hj)|]. cbn. auto 10.
      - intros p e He Ho. destruct (Z.le_gt_cases (ra_ptr a / P) p) as [X|X]; [destruct (Z.lt_ge_cases p (ra_ptr a / P + 2 * n)) as [Y|Y]; [lia|]|];
          rewrite W12 in He by lia; apply K in He; lia.
      - exact W9.
      - intros i _. apply W10. }
    rewrite En in F.
    destruct (put_all_spec t Ht (ra_ptr a) n _ l (n_w s1) _ RG F) as (w2 & E2 & V2 & N2 & F2 & S2 & Q2 & O2).
    rewrite E2. destruct (win_ring_drop t a (with_w s1 w2)) as [r3 s3] eqn:E3. unfold win_ring_drop in E3. rewrite En in E3.
    destruct (win_unmap_ring t (ra_ptr a) (P * n) (with_w s1 w2)) as [r s3'] eqn:E4.
    assert (PM : ra_ptr a mod P = 0) by exact (aligned_page t Ht _ W2).
    destruct (win_unmap_ring_spec (ra_ptr a) n (with_w s1 w2) r s3' W1 PM ltac:(lia) ltac:(nia) W7 W8 E4) as ([[T1 T2 T3 T4 T5] T6] & T7 & M).
    cbn in T1, T2, T3, T4, T5, T6, T7.
    assert (E3' : r3 = Ret tt /\ s3 = s3').
    { destruct r as [[]|e| | |]; try contradiction; injection E3 as <- <-; auto. }
    destruct E3' as [-> ->]. split; [reflexivity|]. split; [reflexivity|]. split.
    { split; intros; try congruence. rewrite T5.
      - rewrite O2 by lia. apply R5; assumption.
      - rewrite N2. lia. }
    destruct r as [[]|e| | |]; try contradiction.
    - destruct M as (b & M1 & M2 & M3). eexists. split; [exact M1|]. destruct b.
      + right. split.
        * intros p. rewrite M2. cbn. rewrite V2.
          destruct (in_pages_cases (ra_ptr a / P + n) n p) as [[-> I]|[-> I]]; cbn; [symmetry; apply W11; lia|].
          destruct (in_pages_cases (ra_ptr a / P) n p) as [[-> J]|[-> J]]; [symmetry; apply W11; lia|]. apply W12. lia.
        * intros x. rewrite M3. cbn. destruct (Z.eqb_spec x (ra_ptr a + P * n)) as [->|N1]; cbn.
          -- symmetry. exact W16.
          -- destruct (Z.eqb_spec x (ra_ptr a)) as [->|N3]; [symmetry; exact W15|]. apply W13; assumption.
        * intros x. rewrite T7. apply W14.
      + left. exists (ra_ptr a). right. left. reflexivity.
    - destruct M as (M1 & _). eexists. split; [exact M1|]. left. exists (ra_ptr a + P * n). right. left. reflexivity.
  Qed.
End Win.
