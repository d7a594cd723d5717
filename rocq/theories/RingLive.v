(** The ring properties C34-C42 for histories of any length, from
    RingExactClaims.v. *)
From Coq Require Import Lia Znumtheory.
From Verif Require Import Base ErrorModel RingSpec RingModel RingExactSpec SeqProofs SizeProofs
  RingProofs IRingProofs RingTheorems RingClaims RingExact RingExactClaims.

Lemma qx_some ck c q os q' xs : qx_run ck c q os (Some (q', xs)) -> q_run q os (Some (q', xs)).
Proof.
  revert c q q' xs. induction os as [|o os IH]; intros c q q' xs H; inversion H; subst.
  - constructor.
  - eapply q_run_ok; [|eassumption|eapply IH; eassumption].
    match goal with N : ~ qx_panics _ _ _ _ |- _ => intros P; apply N; left; exact P end.
Qed.

Lemma lqx_some ck c q os q' xs : lqx_run ck c q os (Some (q', xs)) -> lq_run q os (Some (q', xs)).
Proof.
  revert c q q' xs. induction os as [|o os IH]; intros c q q' xs H; inversion H; subst.
  - constructor.
  - eapply lq_run_ok; [|eassumption|eapply IH; eassumption].
    match goal with N : ~ lqx_panics _ _ _ _ |- _ => intros P; apply N; left; exact P end.
Qed.

Lemma same_qx_run ck os : forall c q s res res', same_q q s -> Forall no_feed os ->
  qx_run ck c q os res -> qx_run ck c s os res' -> option_map snd res = option_map snd res'.
Proof.
  induction os as [|o os IH]; intros c q s res res' Hs Hn H1 H2.
  - inversion H1; inversion H2; subst. reflexivity.
  - inversion Hn as [|? ? Hn1 Hn2]; subst.
    assert (Hen : q_enters q o = q_enters s o)
      by (destruct Hs as [_ Hf]; destruct o; cbn [q_enters]; rewrite ?Hf; reflexivity).
    assert (Hpp : qx_panics ck c q o <-> qx_panics ck c s o).
    { unfold qx_panics. rewrite (same_q_panics q s o Hs), Hen. tauto. }
    assert (Hct : qx_count c q o = qx_count c s o) by (destruct o; cbn [qx_count]; rewrite ?Hen; reflexivity).
    inversion H1 as [|? ? ? ? P1|? ? ? ? q1 x1 q1' xs1 N1 S1 R1|? ? ? ? q1 x1 N1 S1 R1]; subst;
    inversion H2 as [|? ? ? ? P2|? ? ? ? q2 x2 q2' xs2 N2 S2 R2|? ? ? ? q2 x2 N2 S2 R2]; subst;
    try reflexivity; try tauto;
    (destruct (same_q_step q s o q1 q2 x1 x2 Hs Hn1) as [Hs' ->];
      [intros P; apply N1; left; exact P|exact S1|exact S2|]);
    rewrite Hct in R1; pose proof (IH _ _ _ _ _ Hs' Hn2 R1 R2) as E; cbn [option_map snd] in *; congruence.
Qed.

Section L.
  Variable t : target.
  Hypothesis Hg : good_target t.
  Let Hb : 32 <= t_bits t <= 64 := good_bits t Hg.

  Lemma live_fifo cap m os r xs : 0 < cap -> 2 * cap < 2 ^ t_bits t -> exact_positions t cap ->
    Forall (rop_ok t) os -> ring_run t (ring_make cap m) os = Ret (r, xs) ->
    Forall plain os -> Forall no_error xs ->
    exists rest, ring_read_slice t r (umax t) = Ret rest /\
      flat_map bytes_in (combine os xs) = flat_map bytes_out (combine os xs) ++ rest.
  Proof.
    intros Hc Hw X Ho E Hp Hn.
    destruct (answers t Hg cap m os Hc Hw X Ho) as (res & Q & M).
    destruct res as [[q ys]|]; [|rewrite M in E; discriminate].
    destruct M as (r' & E' & S). rewrite E' in E. injection E as -> ->.
    exists (q_data q). split; [apply (shows_data t Hg cap r q S Hw)|].
    exact (q_fifo os _ _ _ (qx_some _ _ _ _ _ _ Q) Hp Hn).
  Qed.

  Lemma live_store cap os r max i d : ring_live t cap os r -> is_usize t max -> is_usize t i ->
    exists data w, ring_read_slice t r (umax t) = Ret data /\ ring_write_slice t r (umax t) = Ret w /\
    match ring_slice_store t r max i d with
    | Ret r' =>
      i + zlen d <= Z.min (zlen w) max /\
      ring_read_slice t r' (umax t) = Ret data /\
      ring_write_slice t r' (umax t) = Ret (ztake i w ++ d ++ zdrop (i + zlen d) w)
    | Panic => Z.min (zlen w) max < i + zlen d
    | _ => False
    end.
  Proof.
    intros H Hm Hi. pose proof H as (_ & Hw & _).
    destruct (live_inv t Hg cap os r H) as (T & R & I & L).
    destruct (live_call t Hg cap os r (RStore max i d) H) as (q & S & C); [split; assumption|].
    destruct (shows_data t Hg cap r q S Hw) as [ED EW].
    exists (q_data q), (q_free q). split; [exact ED|]. split; [exact EW|].
    cbn [ring_step q_panics q_step] in C. unfold is_usize in *.
    destruct C as [[Hp E]|(Hp & _ & r' & x & q' & E & [-> ->] & S')].
    - destruct (ring_slice_store t r max i d); cbn [obind] in E; try discriminate E.
      destruct Hp as [Hp|[Hc Hp]]; [lia|]. cbn [q_enters] in Hp.
      pose proof (inv_ok _ _ _ _ I) as [[HT|HT] _]; [|congruence].
      rewrite (checked_wpos t Hg r T R I Hc) in Hp. lia.
    - destruct (ring_slice_store t r max i d) as [r1| | | |]; cbn [obind] in E; try discriminate E.
      injection E as ->. split; [lia|].
      destruct (shows_data t Hg cap r' _ S' Hw) as [ED' EW']. rewrite ED', EW'. split; reflexivity.
  Qed.

  Lemma live_write_all cap os r b : ring_live t cap os r ->
    exists data wl,
      ring_read_slice t r (umax t) = Ret data /\ ring_write_len t r = Ret wl /\
      match ring_write_all t r b with
      | Ret (r', res) => ~ overflows t (r_wpos r) (Z.min (zlen b) wl) /\
        exists data' wl', ring_read_slice t r' (umax t) = Ret data' /\ ring_write_len t r' = Ret wl' /\
        ((zlen b <= wl /\ res = None /\ data' = data ++ b /\ wl' = wl - zlen b) \/
         (wl < zlen b /\ res = Some (IoSimple WriteZero) /\ data' = data ++ ztake wl b /\ wl' = 0))
      | Panic => overflows t (r_wpos r) (Z.min (zlen b) wl)
      | _ => False
      end.
  Proof.
    intros H. pose proof H as (_ & Hw & _).
    destruct (live_call t Hg cap os r (RWriteAll b) H) as (q & S & C); [exact Logic.I|].
    destruct (shows_data t Hg cap r q S Hw) as [ED _]. pose proof S as (_ & _ & _ & WL & _).
    exists (q_data q), (zlen (q_free q)). split; [exact ED|]. split; [exact WL|].
    cbn [ring_step q_enters q_panics] in C.
    destruct C as [[[[]|Hp] E]|(_ & Hn & r' & x & q' & E & [-> ->] & S')].
    - destruct (ring_write_all t r b) as [[r1 res]| | | |]; cbn [obind] in E; try discriminate E. exact Hp.
    - destruct (shows_data t Hg cap r' _ S' Hw) as [ED' _].
      destruct (ring_write_all t r b) as [[r1 res]| | | |] eqn:EA;
        cbn [obind fst snd] in E; try discriminate E. injection E as -> E.
      split; [exact Hn|]. pose proof S' as (_ & _ & _ & WL' & _).
      exists (q_data q ++ ztake (zlen (q_free q)) b), (zlen (zdrop (zlen (ztake (zlen (q_free q)) b)) (q_free q))).
      split; [exact ED'|]. split; [exact WL'|].
      pose proof (zlen_nonneg (q_free q)). pose proof (zlen_nonneg b).
      rewrite zlen_ztake by lia. rewrite zlen_zdrop by lia.
      destruct (Z.leb_spec (zlen b) (zlen (q_free q))).
      + left. destruct res; [discriminate E|]. rewrite ztake_all by lia.
        split; [lia|]. split; [reflexivity|]. split; [reflexivity|lia].
      + right. destruct res as [e|]; [|discriminate E]. injection E as ->.
        split; [lia|]. split; [reflexivity|]. split; [reflexivity|lia].
  Qed.

  Lemma live_clear cap os r os2 m2 : ring_live t cap os r -> Forall no_feed os2 -> Forall (rop_ok t) os2 ->
    ring_read_len t (ring_clear r) = Ret 0 /\ ring_write_len t (ring_clear r) = Ret cap /\
    match ring_run t (ring_clear r) os2, ring_run t (ring_make cap m2) os2 with
    | Ret (_, xs), Ret (_, ys) => xs = ys
    | Panic, Panic => True
    | _, _ => False
    end.
  Proof.
    intros H Hn Ho. pose proof H as (Hc & Hw & X & _).
    destruct (live_inv t Hg cap os r H) as (T & R & I & L).
    pose proof (make_inv t Hb cap (r_mem r) Hc ltac:(lia)) as I0.
    assert (Hcl : ring_clear r = ring_make cap (r_mem r)) by (unfold ring_clear, ring_make; rewrite L; reflexivity).
    rewrite Hcl.
    assert (S0 : ring_shows t cap (ring_make cap (r_mem r)) (absq (ring_make cap (r_mem r)) 0 0))
      by (apply (inv_shows t Hg _ _ _ I0)).
    split; [|split].
    - destruct S0 as (_ & _ & E & _). exact E.
    - destruct S0 as (_ & _ & _ & E & _). rewrite E.
      rewrite (absq_free_len t Hb _ _ _ I0). cbn [ring_make r_len]. f_equal. lia.
    - destruct (answers t Hg cap (r_mem r) os2 Hc Hw X Ho) as (res1 & Q1 & M1).
      destruct (answers t Hg cap m2 os2 Hc Hw X Ho) as (res2 & Q2 & M2).
      assert (Hs : option_map snd res1 = option_map snd res2).
      { eapply same_qx_run; [|exact Hn|exact Q1|exact Q2].
        split; [reflexivity|]. cbn [q_free]. rewrite !view_len. reflexivity. }
      destruct res1 as [[q1 xs1]|], res2 as [[q2 xs2]|]; cbn in Hs; try discriminate Hs.
      + destruct M1 as (r1 & -> & _), M2 as (r2 & -> & _). congruence.
      + rewrite M1, M2. exact Logic.I.
  Qed.

  Lemma live_no_over cap os r : ring_live t cap os r -> ~ overflows t (r_wpos r) 0.
  Proof.
    intros H [Hc Ho]. destruct (live_inv t Hg cap os r H) as (T & R & I & L).
    pose proof (inv_ok _ _ _ _ I) as [[HT|HT] _]; [|congruence].
    rewrite (checked_wpos t Hg r T R I Hc) in Ho. lia.
  Qed.

  Lemma live_until cap os r c : ring_live t cap os r ->
    exists data r' got,
      ring_read_slice t r (umax t) = Ret data /\ ring_read_until t r c = Ret (r', got) /\
      ring_read_slice t r' (umax t) = Ret (zdrop (zlen got) data) /\
      got ++ zdrop (zlen got) data = data /\
      (exists l, (got = l ++ [c] \/ (got = l /\ l = data)) /\ ~ In c l).
  Proof.
    intros H. pose proof H as (_ & Hw & _).
    destruct (live_call t Hg cap os r (RUntil c) H) as (q & S & C); [exact Logic.I|].
    destruct C as [[[[]|Hp] _]|(_ & _ & r' & x & q' & E & Q & S')].
    { exfalso. exact (live_no_over cap os r H Hp). }
    cbn [q_step] in Q. destruct Q as [-> ->].
    destruct (shows_data t Hg cap r q S Hw) as [ED _]. destruct (shows_data t Hg cap r' _ S' Hw) as [ED' _].
    cbn [ring_step] in E. destruct (ring_read_until t r c) as [[r1 got]| | | |];
      cbn [obind fst snd] in E; try discriminate E. injection E as -> ->.
    exists (q_data q), r', (through c (q_data q)).
    split; [exact ED|]. split; [reflexivity|]. split; [exact ED'|]. split; [apply through_prefix|].
    clear. induction (q_data q) as [|b l IH].
    - exists []. split; [right; split; reflexivity|intros []].
    - cbn [through]. destruct (Z.eqb_spec b c) as [->|Hne].
      + exists []. split; [left; reflexivity|intros []].
      + destruct IH as (l' & [-> |[-> ->]] & Hn).
        * exists (b :: l'). split; [left; reflexivity|]. intros [H|H]; [congruence|tauto].
        * exists (b :: l). split; [right; split; reflexivity|]. intros [H|H]; [congruence|tauto].
  Qed.

  Lemma live_bytes cap os r : ring_live t cap os r ->
    exists rd wr,
      ring_chunk t r = Ret rd /\ ring_remaining t r = Ret (zlen rd) /\
      ring_chunk_mut t r = Ret wr /\ ring_remaining_mut t r = Ret (zlen wr) /\
      (forall n, 0 <= n <= zlen rd -> exists r', ring_advance t r n = Ret r' /\
         ring_chunk t r' = Ret (zdrop n rd)) /\
      (forall d, match ring_put_slice t r d with
         | Ret r' => zlen d <= zlen wr /\ ~ overflows t (r_wpos r) (zlen d) /\
                     ring_chunk t r' = Ret (rd ++ d) /\ ring_remaining_mut t r' = Ret (zlen wr - zlen d)
         | Panic => zlen wr < zlen d \/ overflows t (r_wpos r) (zlen d)
         | _ => False
         end) /\
      (forall d, zlen d <= zlen wr ->
         match (let* r1 := ring_slice_store t r (umax t) 0 d in ring_advance_mut t r1 (zlen d)) with
         | Ret r' => ~ overflows t (r_wpos r) (zlen d) /\ ring_chunk t r' = Ret (rd ++ d)
         | Panic => overflows t (r_wpos r) (zlen d)
         | _ => False
         end).
  Proof.
    intros H. pose proof H as (Hc & Hw & X & _).
    destruct (live_inv t Hg cap os r H) as (T & R & I & L).
    set (q := absq r T R).
    assert (S : ring_shows t cap r q) by (rewrite <- L; apply (inv_shows t Hg), I).
    destruct (shows_data t Hg cap r q S Hw) as [ED EW]. pose proof S as (_ & HL & RL & WL & _).
    pose proof (zlen_nonneg (q_free q)) as HF0. pose proof (zlen_nonneg (q_data q)) as HD0.
    exists (q_data q), (q_free q). split; [exact ED|]. split; [exact RL|]. split; [exact EW|].
    split; [exact WL|].
    assert (Huniq : forall q', ring_shows t cap r q' -> q' = q)
      by (intros q' Hq'; exact (shows_unique t Hg cap r q' q Hq' S)).
    split; [|split].
    - intros n Hn. destruct (live_call t Hg cap os r (RConsume n) H) as (q0 & S0 & C);
        [cbn; unfold is_usize; lia|].
      rewrite (Huniq q0 S0) in C. destruct C as [[[[]|Hp] _]|(_ & _ & r' & x & q' & E & [-> ->] & S')].
      { exfalso. exact (live_no_over cap os r H Hp). }
      cbn [ring_step] in E. unfold ring_advance.
      destruct (ring_consume t r n); cbn [obind] in E; try discriminate E. injection E as ->.
      exists r'. split; [reflexivity|]. apply (shows_data t Hg cap r' _ S' Hw).
    - intros d. destruct (live_call t Hg cap os r (RPut d) H) as (q0 & S0 & C); [exact Logic.I|].
      rewrite (Huniq q0 S0) in C. cbn [ring_step q_enters q_panics] in C.
      destruct C as [[Hp E]|(Hp & Hn & r' & x & q' & E & [-> ->] & S')].
      + destruct (ring_put_slice t r d); cbn [obind] in E; try discriminate E. exact Hp.
      + destruct (ring_put_slice t r d); cbn [obind] in E; try discriminate E. injection E as ->.
        pose proof (zlen_nonneg d). split; [lia|]. split; [exact Hn|].
        destruct (shows_data t Hg cap r' _ S' Hw) as [E2 _]. split; [exact E2|].
        destruct S' as (_ & _ & _ & W' & _). unfold ring_remaining_mut. rewrite W'.
        cbn [q_append q_free]. rewrite zlen_zdrop by lia. f_equal. lia.
    - intros d Hd. pose proof (zlen_nonneg d) as Hd0.
      assert (Hu : zlen d <= Z.min (r_len r - (T - R)) (umax t)).
      { unfold q in *. rewrite (absq_free_len t Hb r T R I) in *. unfold umax. lia. }
      assert (Hu0 : 0 <= umax t) by (unfold umax; lia).
      unfold ring_advance_mut, overflows.
      assert (D : t_checks t = true /\ 2 ^ 64 <= T + zlen d \/ (T + zlen d < 2 ^ 64 \/ t_checks t = false)).
      { destruct (t_checks t); [|right; right; reflexivity].
        destruct (Z.lt_ge_cases (T + zlen d) (2 ^ 64)); [right; left; lia|left; split; [reflexivity|lia]]. }
      destruct D as [[Hk Ho]|Ho].
      + rewrite (store_feed_over t Hg r T R (umax t) d I Hu0 Hk Hu Ho).
        split; [exact Hk|]. rewrite (checked_wpos t Hg r T R I Hk). exact Ho.
      + destruct (store_feed t Hb r T R (umax t) d (zlen d) I Hu0 eq_refl Hu) as (r2 & E & I2 & A2 & L2).
        { apply (exact_pos t); [rewrite L; exact X|exact Ho]. }
        rewrite E. split.
        * intros [Hk Hx]. rewrite (checked_wpos t Hg r T R I Hk) in Hx. destruct Ho; [lia|congruence].
        * assert (S2 : ring_shows t cap r2 (absq r2 (T + zlen d) R)).
          { rewrite <- L, <- L2. apply (inv_shows t Hg), I2. }
          unfold ring_chunk. destruct (shows_data t Hg cap r2 _ S2 Hw) as [E2 _]. rewrite E2.
          rewrite A2. reflexivity.
  Qed.

  (** ** InfiniteRing *)

  (** How the count of the spec grows without feed and stores. *)
  Lemma lqx_simple ck cap os : forall c q res, zlen (lq_tape q) = cap -> 0 <= lq_len q <= cap ->
    Forall splain os -> Forall (irop_ok t cap) os -> lqx_run ck c q os res ->
    match res with
    | Some (q', xs) => (ck = true -> c < 2 ^ 64 -> c + irops_weight cap os < 2 ^ 64) /\
        xs = snd (s_run cap (lq_data q) os) /\ lq_data q' = fst (s_run cap (lq_data q) os)
    | None => ck = true /\ 2 ^ 64 <= c + irops_weight cap os
    end.
  Proof.
    induction os as [|o os IH]; intros c q res HT HL Hp Ho H.
    - inversion H; subst. cbn [irops_weight]. split; [lia|]. split; reflexivity.
    - inversion Hp as [|? ? Hp1 Hp2]; subst. inversion Ho as [|? ? Ho1 Ho2]; subst.
      set (cap := zlen (lq_tape q)) in *.
      assert (Hc : 0 <= cap) by apply zlen_nonneg.
      pose proof (irops_weight_nonneg t cap os Hc Ho2) as Hw0.
      assert (Hen : lq_enters q o = irop_weight cap o) by (destruct o; reflexivity).
      assert (Hnp : ~ lq_panics q o) by (destruct o; cbn in *; tauto).
      assert (Hstep : forall q1 x, lq_step q o q1 x ->
        zlen (lq_tape q1) = cap /\ 0 <= lq_len q1 <= cap /\ s_step cap (lq_data q) o = (lq_data q1, x)).
      { intros q1 x Hs. destruct o as [b|b|n|n|n|max i d|max]; cbn [lq_step splain s_step irop_ok] in *;
          unfold is_usize in *; try contradiction; destruct Hs as [-> ->].
        - fold cap. rewrite lastn_tape_len, lq_data_push by exact HL. split; [reflexivity|].
          split; [|reflexivity]. cbn [lq_push lq_len]. fold cap.
          pose proof (zlen_nonneg (ztake cap b)). lia.
        - rewrite lastn_tape_len, lq_data_push by exact HL. split; [reflexivity|].
          split; [|reflexivity]. cbn [lq_push lq_len]. fold cap. pose proof (zlen_nonneg b). lia.
        - rewrite lq_data_drop by (fold cap; lia). split; [reflexivity|].
          split; [|reflexivity]. cbn [lq_drop lq_len]. lia.
        - rewrite lq_data_drop by (fold cap; lia). split; [reflexivity|].
          split; [|reflexivity]. cbn [lq_drop lq_len]. lia.
        - split; [reflexivity|]. split; [exact HL|reflexivity]. }
      inversion H as [|? ? ? ? P|? ? ? ? q1 x q2 xs N S R|? ? ? ? q1 x N S R]; subst.
      + destruct P as [P|[P1 P2]]; [tauto|]. split; [exact P1|]. cbn [irops_weight]. rewrite <- Hen. lia.
      + destruct (Hstep q1 x S) as (H1 & H2 & H3). cbn [s_run irops_weight]. rewrite H3.
        pose proof (IH _ q1 _ H1 H2 Hp2 Ho2 R) as (A1 & A2 & A3).
        destruct (s_run cap (lq_data q1) os) as [d2 ys]; cbn [fst snd] in *. subst.
        split; [|split; reflexivity]. intros Hk Hb1. rewrite <- Hen. rewrite Z.add_assoc. apply A1; [exact Hk|].
        destruct (Z.lt_ge_cases (c + lq_enters q o) (2 ^ 64)); [assumption|].
        exfalso. apply N. right. split; [exact Hk|lia].
      + destruct (Hstep q1 x S) as (H1 & H2 & H3). cbn [irops_weight].
        pose proof (IH _ q1 _ H1 H2 Hp2 Ho2 R) as (A1 & A2).
        split; [exact A1|]. rewrite <- Hen. lia.
  Qed.

  Lemma live_most_recent cap m os : 0 < cap -> 2 * cap < 2 ^ t_bits t -> exact_positions t cap ->
    Forall (irop_ok t cap) os -> Forall splain os ->
    match iring_run t (iring_make cap m) os with
    | Ret (r, xs) =>
      ~ (t_checks t = true /\ 2 ^ 64 <= irops_weight cap os) /\
      xs = snd (s_run cap [] os) /\
      iring_read_slice t r (umax t) = Ret (fst (s_run cap [] os)) /\
      iring_read_len t r = zlen (fst (s_run cap [] os)) /\ iring_write_len r = cap
    | Panic => t_checks t = true /\ 2 ^ 64 <= irops_weight cap os
    | _ => False
    end.
  Proof.
    intros Hc Hw X Ho Hp.
    destruct (ianswers t Hg cap m os Hc Hw X Ho) as (res & Q & M).
    assert (Ht0 : zlen (lq_tape {| lq_tape := view m 0 cap; lq_len := 0 |}) = cap)
      by (cbn [lq_tape]; rewrite view_len; lia).
    assert (Hd0 : lq_data {| lq_tape := view m 0 cap; lq_len := 0 |} = []).
    { apply zlen_0. rewrite lq_data_len; [reflexivity|]. rewrite Ht0. cbn [lq_len]. lia. }
    pose proof (lqx_simple (t_checks t) cap os 0 _ res Ht0) as K.
    specialize (K ltac:(cbn [lq_len]; lia) Hp Ho Q). rewrite Hd0 in K. cbn [Z.add] in K.
    destruct res as [[q xs]|].
    - destruct M as (r & E & S). rewrite E. destruct K as (K1 & K2 & K3).
      split; [intros [Hk Hx]; specialize (K1 Hk); lia|]. split; [exact K2|].
      rewrite <- K3. split; [apply (ishows_data t Hg cap); assumption|].
      destruct S as (_ & W & _ & _ & RL & _). split; [exact RL|exact W].
    - rewrite M. exact K.
  Qed.

  Lemma live_oversized cap os r b : iring_live t cap os r -> zlen b < 2 ^ t_bits t ->
    exists data, iring_read_slice t r (umax t) = Ret data /\
    match iring_write t r b with
    | Ret (r1, n) => ~ overflows t (i_wpos r) (Z.min (zlen b) cap) /\ n = Z.min (zlen b) cap /\
        iring_read_slice t r1 (umax t) = Ret (lastn cap (data ++ ztake cap b))
    | Panic => overflows t (i_wpos r) (Z.min (zlen b) cap)
    | _ => False
    end /\
    match iring_write_all t r b with
    | Ret r2 => ~ overflows t (i_wpos r) (Z.min (zlen b) cap) /\
        iring_read_slice t r2 (umax t) = Ret (lastn cap (data ++ b))
    | Panic => overflows t (i_wpos r) (Z.min (zlen b) cap)
    | _ => False
    end.
  Proof.
    intros H Hlb. pose proof H as (Hc & Hw & _).
    destruct (ilive_call t Hg cap os r (IWrite b) H) as (q & S & C); [exact Hlb|].
    destruct (ilive_call t Hg cap os r (IWriteAll b) H) as (q2 & S2 & C2); [exact Hlb|].
    destruct (ishows_len t cap r q S) as [HL HT]. destruct (ishows_len t cap r q2 S2) as [HL2 HT2].
    pose proof (ishows_data t Hg cap r q S Hw) as D. pose proof (ishows_data t Hg cap r q2 S2 Hw) as D2.
    rewrite D in D2. injection D2 as D2.
    exists (lq_data q). split; [exact D|]. cbn [iring_step lq_enters] in C, C2. rewrite HT in C. rewrite HT2 in C2.
    split.
    - destruct C as [[[[]|Hp] E]|(_ & Hn & r1 & x & q' & E & [-> ->] & S')].
      + destruct (iring_write t r b); cbn [obind] in E; try discriminate E. exact Hp.
      + destruct (iring_write t r b) as [[s n]| | | |]; cbn [obind fst snd] in E; try discriminate E.
        rewrite HT in E. injection E as -> ->. split; [exact Hn|]. split; [reflexivity|].
        pose proof (ishows_data t Hg cap r1 _ S' Hw) as D'. rewrite lq_data_push in D' by lia.
        rewrite HT in D'. exact D'.
    - destruct C2 as [[[[]|Hp] E]|(_ & Hn & r1 & x & q' & E & [-> ->] & S')].
      + destruct (iring_write_all t r b); cbn [obind] in E; try discriminate E. exact Hp.
      + destruct (iring_write_all t r b) as [s| | | |]; cbn [obind] in E; try discriminate E.
        injection E as ->. split; [exact Hn|].
        pose proof (ishows_data t Hg cap r1 _ S' Hw) as D'. rewrite lq_data_push in D' by lia.
        rewrite HT2, <- D2 in D'. exact D'.
  Qed.

  Lemma live_feed cap os r n : iring_live t cap os r -> is_usize t n ->
    match iring_feed t r n with
    | Ret r' => ~ (t_checks t = true /\
                   (2 ^ 64 <= iring_read_len t r + n \/ 2 ^ 64 <= i_wpos r + Z.min n cap)) /\
        iring_read_len t r' = Z.min ((iring_read_len t r + n) mod 2 ^ 64) cap
    | Panic => t_checks t = true /\
        (2 ^ 64 <= iring_read_len t r + n \/ 2 ^ 64 <= i_wpos r + Z.min n cap)
    | _ => False
    end.
  Proof.
    intros H Hn. pose proof H as (Hc & Hw & X & _).
    destruct (ilive_inv t Hg cap os r H) as (T & I & L).
    rewrite (i_read_len_eq t Hb r T I). unfold is_usize in Hn.
    pose proof (word_le t Hb) as HW.
    assert (HR : 0 <= i_rlen r <= cap) by (destruct I; lia).
    assert (HC : t_checks t = true -> i_wpos r = T).
    { intros Hk. pose proof (ii_ok _ _ _ I) as [[HT|HT] _]; [|congruence].
      rewrite (ii_wpos _ _ _ I). destruct I. apply Z.mod_small. lia. }
    assert (D : t_checks t = true /\ 2 ^ 64 <= T + Z.min n cap \/ (T + Z.min n cap < 2 ^ 64 \/ t_checks t = false)).
    { destruct (t_checks t); [|right; right; reflexivity].
      destruct (Z.lt_ge_cases (T + Z.min n cap) (2 ^ 64)); [right; left; lia|left; split; [reflexivity|lia]]. }
    destruct D as [[Hk Ho]|Ho].
    - rewrite (i_feed_wover t Hg r T n I Hn Hk) by (rewrite L; exact Ho).
      split; [exact Hk|]. right. rewrite (HC Hk). exact Ho.
    - assert (Hok : pos_ok t (i_len r) (T + Z.min n (i_len r))).
      { rewrite L. apply (exact_pos t); assumption. }
      assert (Hno : t_checks t = true -> ~ 2 ^ 64 <= i_wpos r + Z.min n cap).
      { intros Hk. rewrite (HC Hk). destruct Ho; [lia|congruence]. }
      destruct (Z.lt_ge_cases (i_rlen r + n) (2 ^ 64)) as [Hs|Hs].
      + destruct (i_feed_eq t Hb r T I n) as (r' & E & I' & A & L'); [lia|lia|exact Hok|].
        rewrite E. split; [intros [Hk [?|?]]; [lia|exact (Hno Hk H0)]|].
        rewrite (i_read_len_eq t Hb r' _ I'). rewrite Z.mod_small by lia.
        pose proof (f_equal lq_len A) as Hl. cbn [abst lq_len] in Hl. rewrite Hl, L. reflexivity.
      + rewrite (i_feed_over t Hb r T I n Hn Hs Hok).
        destruct (t_checks t); [split; [reflexivity|left; lia]|].
        split; [intros [Hk _]; discriminate Hk|].
        unfold iring_read_len; cbn [i_rlen]. unfold as_usize. rewrite L.
        replace ((i_rlen r + n) mod 2 ^ 64) with (i_rlen r + n - 2 ^ 64)
          by (apply (Zmod_unique _ _ 1); lia).
        apply Z.mod_small. lia.
  Qed.
End L.
