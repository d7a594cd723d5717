(** [Ring] and [InfiniteRing] refine the counting queues of RingExactSpec.v
    over every history. *)
From Coq Require Import Lia Znumtheory.
From Verif Require Import Base ErrorModel RingSpec RingModel RingExactSpec SeqProofs SizeProofs
  RingProofs IRingProofs RingTheorems RingClaims.

Section X.
  Variable t : target.
  Hypothesis Hg : good_target t.
  Let Hb : 32 <= t_bits t <= 64 := good_bits t Hg.

  (** No overflow now: the position is exact. *)
  Lemma exact_pos cap X : exact_positions t cap -> X < 2 ^ 64 \/ t_checks t = false -> pos_ok t cap X.
  Proof.
    intros [D|[B C]] H; split; try exact H.
    - right; exact D.
    - left. rewrite B. destruct H as [H|H]; [exact H|congruence].
  Qed.

  (** ** Ring: the overflowing calls panic *)

  Lemma feed_over r T R n : inv t r T R -> 0 <= n -> t_checks t = true ->
    2 ^ 64 <= T + Z.min n (r_len r - (T - R)) -> ring_feed t r n = Panic.
  Proof.
    intros I Hn Hc Ho. unfold ring_feed. rewrite (write_len_eq t Hb r T R I). cbn [obind].
    pose proof (word_le t Hb). pose proof (inv_ok _ _ _ _ I) as [[HT|HT] _]; [|congruence].
    destruct I. unfold as_u64. rewrite (Z.mod_small (Z.min _ _)) by lia.
    unfold add64. rewrite inv_wpos, Hc. rewrite Z.mod_small by lia. rewrite wrap_out by lia. reflexivity.
  Qed.

  Lemma store_feed_over r T R max d : inv t r T R -> 0 <= max -> t_checks t = true ->
    zlen d <= Z.min (r_len r - (T - R)) max -> 2 ^ 64 <= T + zlen d ->
    (let* r1 := ring_slice_store t r max 0 d in ring_feed t r1 (zlen d)) = Panic.
  Proof.
    intros I Hm Hc Hd Ho. pose proof (zlen_nonneg d).
    destruct (slice_store_ok t Hb r T R I max 0 d Hm) as (r1 & E1 & I1 & _ & L1 & _); [lia|lia|].
    rewrite E1. cbn [obind]. apply (feed_over r1 T R _ I1); [lia|exact Hc|]. rewrite L1. lia.
  Qed.

  Lemma write_over r T R b : inv t r T R -> t_checks t = true ->
    2 ^ 64 <= T + Z.min (zlen b) (r_len r - (T - R)) -> ring_write t r b = Panic.
  Proof.
    intros I Hc Ho. pose proof (zlen_nonneg b) as Hb0. unfold ring_write.
    rewrite (write_slice_eq t Hb r T R I) by exact Hb0. cbn [obind].
    rewrite zlen_ztake by exact Hb0. rewrite (absq_free_len t Hb r T R I).
    set (n := Z.min (zlen b) (r_len r - (T - R))) in *.
    assert (Hn : 0 <= n) by (destruct I; lia).
    assert (Hz : zlen (ztake n b) = n) by (rewrite zlen_ztake by exact Hn; lia).
    pose proof (store_feed_over r T R (zlen b) (ztake n b) I Hb0 Hc) as E. rewrite Hz in E.
    specialize (E ltac:(lia) Ho).
    destruct (ring_slice_store t r (zlen b) 0 (ztake n b)) as [r1| | | |]; cbn [obind] in *; try reflexivity; try discriminate E.
    rewrite E. reflexivity.
  Qed.

  Lemma write_all_over r T R b : inv t r T R -> t_checks t = true ->
    2 ^ 64 <= T + Z.min (zlen b) (r_len r - (T - R)) -> ring_write_all t r b = Panic.
  Proof.
    intros I Hc Ho. unfold ring_write_all. destruct b as [|b0 b'].
    - pose proof (inv_ok _ _ _ _ I) as [[HT|HT] _]; [|congruence].
      rewrite zlen_nil in Ho. destruct I. lia.
    - change (length (b0 :: b')) with (S (length b')). cbn [ring_write_all_loop].
      rewrite (write_over r T R (b0 :: b') I Hc Ho). reflexivity.
  Qed.

  Lemma put_over r T R b : inv t r T R -> t_checks t = true -> zlen b <= r_len r - (T - R) ->
    2 ^ 64 <= T + zlen b -> ring_put_slice t r b = Panic.
  Proof.
    intros I Hc Hf Ho. unfold ring_put_slice, ring_remaining_mut.
    rewrite (write_len_eq t Hb r T R I). cbn [obind].
    destruct (Z.ltb_spec (r_len r - (T - R)) (zlen b)); [reflexivity|].
    destruct b as [|b0 b'].
    - pose proof (inv_ok _ _ _ _ I) as [[HT|HT] _]; [|congruence]. rewrite zlen_nil in Ho. lia.
    - set (b := b0 :: b') in *. pose proof (zlen_nonneg b) as Hb0.
      change (length b) with (S (length b')). unfold b at 1. cbn [ring_put_loop]. fold b.
      assert (Hu : r_len r - (T - R) <= umax t) by (destruct I; unfold umax; lia).
      assert (Hu0 : 0 <= umax t) by (destruct I; lia).
      unfold ring_chunk_mut. rewrite (write_slice_eq t Hb r T R I) by exact Hu0. cbn [obind].
      rewrite (ztake_all (umax t)) by (rewrite (absq_free_len t Hb r T R I); exact Hu).
      rewrite (absq_free_len t Hb r T R I).
      replace (Z.min (r_len r - (T - R)) (zlen b)) with (zlen b) by lia.
      rewrite (ztake_all (zlen b) b) by lia.
      pose proof (store_feed_over r T R (umax t) b I Hu0 Hc) as E. specialize (E ltac:(lia) Ho).
      destruct (ring_slice_store t r (umax t) 0 b) as [r1| | | |]; cbn [obind] in *; try reflexivity; try discriminate E.
      unfold ring_advance_mut. rewrite E. reflexivity.
  Qed.

  (** One call: what happens, exactly. *)
  Lemma step_exact r T R o : inv t r T R -> rop_ok t o -> exact_positions t (r_len r) ->
    (qx_panics (t_checks t) T (absq r T R) o /\ ring_step t r o = Panic) \/
    (~ qx_panics (t_checks t) T (absq r T R) o /\ exists r' x R',
       ring_step t r o = Ret (r', x) /\ inv t r' (qx_count T (absq r T R) o) R' /\
       q_step (absq r T R) o (absq r' (qx_count T (absq r T R) o) R') x /\ r_len r' = r_len r).
  Proof.
    intros I Ho X.
    pose proof (absq_data_len t Hb r T R I) as HD. pose proof (absq_free_len t Hb r T R I) as HF.
    pose proof (inv_len _ _ _ _ I) as Hlen. pose proof (inv_R _ _ _ _ I) as HR0.
    pose proof (inv_RT _ _ _ _ I) as HRT. pose proof (inv_T _ _ _ _ I) as HTR.
    (* calls after which the position is the same never overflow *)
    assert (K0 : T < 2 ^ 64 \/ t_checks t = false) by apply (inv_ok _ _ _ _ I).
    assert (Q : forall k, 2 ^ 64 <= T + k /\ t_checks t = true \/ (T + k < 2 ^ 64 \/ t_checks t = false)).
    { intros k. destruct (t_checks t); [|right; right; reflexivity].
      destruct (Z.lt_ge_cases (T + k) (2 ^ 64)); [right; left; lia|left; split; [lia|reflexivity]]. }
    destruct o as [b|b|n|n|n|max i d|max|d|b|]; cbn [rop_ok] in *; unfold qx_panics, qx_count;
      cbn [q_enters q_panics]; rewrite ?HF; rewrite ?Z.add_0_r.
    - destruct (Q (Z.min (zlen b) (r_len r - (T - R)))) as [[Hv Hc]|Hv].
      + left. split; [right; split; assumption|]. cbn [ring_step]. rewrite (write_over r T R b I Hc Hv). reflexivity.
      + right. split; [intros [[]|[Hc Hx]]; destruct Hv; [lia|congruence]|].
        destruct (write_eq t Hb r T R b I) as (r' & E & I' & A & L); [apply exact_pos; assumption|].
        cbn [ring_step]. rewrite E. cbn [obind fst snd].
        eexists _, _, _. split; [reflexivity|]. split; [exact I'|]. split; [|exact L].
        cbn [q_step]. rewrite HF, A. split; reflexivity.
    - destruct (Q (Z.min (zlen b) (r_len r - (T - R)))) as [[Hv Hc]|Hv].
      + left. split; [right; split; assumption|]. cbn [ring_step]. rewrite (write_all_over r T R b I Hc Hv). reflexivity.
      + right. split; [intros [[]|[Hc Hx]]; destruct Hv; [lia|congruence]|].
        destruct (write_all_eq t Hb r T R b I) as (r' & E & I' & A & L); [apply exact_pos; assumption|].
        cbn [ring_step]. rewrite E. cbn [obind fst snd].
        eexists _, _, _. split; [reflexivity|]. split; [exact I'|]. split; [|exact L].
        cbn [q_step]. rewrite HF, A. split.
        * f_equal. rewrite Z.min_comm. apply ztake_min.
        * destruct (zlen b <=? r_len r - (T - R)); reflexivity.
    - right. split; [intros [[]|[Hc Hx]]; destruct K0; [lia|congruence]|]. unfold is_usize in Ho.
      destruct (read_eq t Hb r T R n I) as (r' & E & I' & A & L); [lia|].
      cbn [ring_step]. rewrite E. cbn [obind fst snd].
      eexists _, _, _. split; [reflexivity|]. split; [exact I'|]. split; [|exact L].
      cbn [q_step]. split; [exact A|reflexivity].
    - right. split; [intros [[]|[Hc Hx]]; destruct K0; [lia|congruence]|]. unfold is_usize in Ho.
      destruct (consume_eq t Hb r T R I n) as (r' & E & I' & A & L); [lia|].
      cbn [ring_step]. rewrite E. cbn [obind].
      eexists _, _, _. split; [reflexivity|]. split; [exact I'|]. split; [|exact L].
      cbn [q_step]. split; [exact A|reflexivity].
    - unfold is_usize in Ho. destruct (Q (Z.min n (r_len r - (T - R)))) as [[Hv Hc]|Hv].
      + left. split; [right; split; assumption|]. cbn [ring_step].
        rewrite (feed_over r T R n I); [reflexivity|lia|exact Hc|exact Hv].
      + right. split; [intros [[]|[Hc Hx]]; destruct Hv; [lia|congruence]|].
        destruct (feed_eq t Hb r T R I n) as (r' & E & I' & A & L); [lia|apply exact_pos; assumption|].
        cbn [ring_step]. rewrite E. cbn [obind].
        eexists _, _, _. split; [reflexivity|]. split; [exact I'|]. split; [|exact L].
        cbn [q_step]. split; [exact A|reflexivity].
    - unfold is_usize in Ho. cbn [ring_step].
      destruct (Z.leb_spec (i + zlen d) (Z.min (r_len r - (T - R)) max)) as [Hs|Hs].
      + right. split; [intros [Hn|[Hc Hx]]; [apply Hn; lia|destruct K0; [lia|congruence]]|].
        destruct (slice_store_ok t Hb r T R I max i d) as (r' & E & I' & A & L & _ & _); [lia..|].
        rewrite E. cbn [obind]. eexists _, _, _. split; [reflexivity|].
        split; [exact I'|]. split; [|exact L].
        cbn [q_step]. split; [exact A|reflexivity].
      + left. split; [left; lia|]. rewrite (slice_store_bad t Hb r T R I) by lia. reflexivity.
    - right. split; [intros [[]|[Hc Hx]]; destruct K0; [lia|congruence]|]. unfold is_usize in Ho.
      cbn [ring_step]. rewrite (read_slice_eq t Hb r T R I) by lia. cbn [obind].
      eexists _, _, _. split; [reflexivity|]. split; [exact I|].
      split; [|reflexivity]. cbn [q_step]. split; reflexivity.
    - right. split; [intros [[]|[Hc Hx]]; destruct K0; [lia|congruence]|].
      destruct (read_until_eq t Hb r T R d I) as (r' & E & I' & A & L).
      cbn [ring_step]. rewrite E. cbn [obind fst snd].
      eexists _, _, _. split; [reflexivity|]. split; [exact I'|]. split; [|exact L].
      cbn [q_step]. split; [exact A|reflexivity].
    - cbn [ring_step]. pose proof (zlen_nonneg b).
      destruct (Z.ltb_spec (r_len r - (T - R)) (zlen b)) as [Hs|Hs].
      + left. split; [left; exact Hs|]. rewrite (put_slice_bad t Hb r T R) by assumption. reflexivity.
      + destruct (Q (zlen b)) as [[Hv Hc]|Hv].
        * left. split; [right; split; assumption|]. rewrite (put_over r T R b I Hc Hs Hv). reflexivity.
        * right. split; [intros [Hp|[Hc Hx]]; [lia|destruct Hv; [lia|congruence]]|].
          destruct (put_slice_ok t Hb r T R b I) as (r' & E & I' & A & L); [lia|apply exact_pos; assumption|].
          rewrite E. cbn [obind]. eexists _, _, _. split; [reflexivity|].
          split; [exact I'|]. split; [|exact L].
          cbn [q_step]. split; [exact A|reflexivity].
    - right. split; [intros [[]|[Hc Hx]]; destruct K0; [lia|congruence]|]. cbn [ring_step].
      eexists _, _, 0. split; [reflexivity|]. split; [exact (clear_inv t Hb r T R I)|].
      split; [|reflexivity]. cbn [q_step]. split.
      { apply zlen_0. rewrite (absq_data_len t Hb _ 0 0 (clear_inv t Hb r T R I)). lia. }
      split; [|reflexivity]. cbn zeta. rewrite (absq_all t r T R I).
      destruct (rotation (r_mem r) (r_len r) R Hlen) as [k Hk]. exists k.
      cbn [absq q_free ring_clear r_len r_mem]. rewrite <- Hk. f_equal. lia.
  Qed.

  Lemma run_exact os : forall r T R, inv t r T R -> exact_positions t (r_len r) -> Forall (rop_ok t) os ->
    exists res, qx_run (t_checks t) T (absq r T R) os res /\
      match res with
      | Some (q, xs) => exists r' T' R', ring_run t r os = Ret (r', xs) /\
                          inv t r' T' R' /\ absq r' T' R' = q /\ r_len r' = r_len r
      | None => ring_run t r os = Panic
      end.
  Proof.
    induction os as [|o os IH]; intros r T R I X H.
    - exists (Some (absq r T R, [])). split; [constructor|]. exists r, T, R. auto.
    - inversion H as [|? ? Ho Hos]; subst.
      destruct (step_exact r T R o I Ho X) as [[Hp E]|(Hn & r' & x & R' & E & I' & S & L)].
      + exists None. split; [apply qx_panic; exact Hp|]. cbn [ring_run]. rewrite E. reflexivity.
      + rewrite <- L in X. destruct (IH r' _ R' I' X Hos) as (res & Q & M).
        destruct res as [[q xs]|].
        * exists (Some (q, x :: xs)). split; [eapply qx_ok; eassumption|].
          destruct M as (r2 & T2 & R2 & E2 & I2 & A2 & L2).
          exists r2, T2, R2. cbn [ring_run]. rewrite E. cbn [obind fst snd].
          rewrite E2. cbn [obind fst snd]. repeat split; try assumption; try apply I2. lia.
        * exists None. split; [eapply qx_later; eassumption|].
          cbn [ring_run]. rewrite E. cbn [obind fst]. rewrite M. reflexivity.
  Qed.

  (** ** InfiniteRing *)

  Lemma i_feed_wover r T n : iinv t r T -> 0 <= n < 2 ^ t_bits t -> t_checks t = true ->
    2 ^ 64 <= T + Z.min n (i_len r) -> iring_feed t r n = Panic.
  Proof.
    intros I Hn Hc Ho. unfold iring_feed, iring_write_len, iring_write_capacity.
    pose proof (word_le t Hb). pose proof (ii_ok _ _ _ I) as [[HT|HT] _]; [|congruence].
    destruct I. unfold as_u64. rewrite (Z.mod_small (Z.min _ _)) by lia.
    unfold add64. rewrite ii_wpos, Hc. rewrite Z.mod_small by lia. rewrite wrap_out by lia. reflexivity.
  Qed.

  Lemma i_store_feed_over r T max d : iinv t r T -> 0 <= max -> t_checks t = true ->
    zlen d <= Z.min (i_len r) max -> 2 ^ 64 <= T + zlen d ->
    (let* r1 := iring_slice_store t r max 0 d in iring_feed t r1 (zlen d)) = Panic.
  Proof.
    intros I Hm Hc Hd Ho. pose proof (zlen_nonneg d).
    destruct (i_store_ok t Hb r T I max 0 d Hm) as (r1 & E1 & I1 & _ & L1 & _); [lia|lia|].
    rewrite E1. cbn [obind]. apply (i_feed_wover r1 T _ I1); [destruct I; lia|exact Hc|]. rewrite L1. lia.
  Qed.

  Lemma i_write_over r T b : iinv t r T -> t_checks t = true ->
    2 ^ 64 <= T + Z.min (zlen b) (i_len r) -> iring_write t r b = Panic.
  Proof.
    intros I Hc Ho. pose proof (zlen_nonneg b) as Hb0. unfold iring_write.
    rewrite (i_write_slice_eq t Hb r T I) by exact Hb0. cbn [obind].
    rewrite zlen_ztake by exact Hb0. rewrite (abst_tape_len t Hb r T I).
    set (n := Z.min (zlen b) (i_len r)) in *.
    assert (Hn : 0 <= n) by (destruct I; lia).
    assert (Hz : zlen (ztake n b) = n) by (rewrite zlen_ztake by exact Hn; lia).
    pose proof (i_store_feed_over r T (zlen b) (ztake n b) I Hb0 Hc) as E. rewrite Hz in E.
    specialize (E ltac:(lia) Ho).
    destruct (iring_slice_store t r (zlen b) 0 (ztake n b)) as [r1| | | |]; cbn [obind] in *; try reflexivity; try discriminate E.
    rewrite E. reflexivity.
  Qed.

  Lemma i_write_all_over r T b : iinv t r T -> zlen b < 2 ^ t_bits t -> t_checks t = true ->
    2 ^ 64 <= T + Z.min (zlen b) (i_len r) -> iring_write_all t r b = Panic.
  Proof.
    intros I Hw Hc Ho. pose proof (zlen_nonneg b) as Hb0. unfold iring_write_all.
    rewrite (i_write_slice_eq t Hb r T I) by exact Hb0. cbn [obind].
    rewrite zlen_ztake by exact Hb0. rewrite (abst_tape_len t Hb r T I).
    set (n := Z.min (zlen b) (i_len r)) in *.
    assert (Hn : 0 <= n) by (destruct I; lia).
    unfold usub. rewrite wrap_in by lia. cbn [obind].
    assert (Hz : zlen (zdrop (zlen b - n) b) = n) by (rewrite zlen_zdrop; lia).
    pose proof (i_store_feed_over r T (zlen b) (zdrop (zlen b - n) b) I Hb0 Hc) as E. rewrite Hz in E.
    exact (E ltac:(lia) Ho).
  Qed.

  Lemma istep_exact r T o : iinv t r T -> irop_ok t (i_len r) o -> exact_positions t (i_len r) ->
    (lqx_panics (t_checks t) T (abst r T) o /\ iring_step t r o = Panic) \/
    (~ lqx_panics (t_checks t) T (abst r T) o /\ exists r' x,
       iring_step t r o = Ret (r', x) /\ iinv t r' (T + lq_enters (abst r T) o) /\
       lq_step (abst r T) o (abst r' (T + lq_enters (abst r T) o)) x /\ i_len r' = i_len r).
  Proof.
    intros I Ho X. pose proof (abst_tape_len t Hb r T I) as HL.
    pose proof (ii_len _ _ _ I) as Hlen.
    assert (K0 : T < 2 ^ 64 \/ t_checks t = false) by apply (ii_ok _ _ _ I).
    assert (Q : forall k, 2 ^ 64 <= T + k /\ t_checks t = true \/ (T + k < 2 ^ 64 \/ t_checks t = false)).
    { intros k. destruct (t_checks t); [|right; right; reflexivity].
      destruct (Z.lt_ge_cases (T + k) (2 ^ 64)); [right; left; lia|left; split; [lia|reflexivity]]. }
    destruct o as [b|b|n|n|n|max i d|max]; cbn [irop_ok] in *; unfold lqx_panics;
      cbn [lq_enters lq_panics]; rewrite ?HL; rewrite ?Z.add_0_r.
    - destruct (Q (Z.min (zlen b) (i_len r))) as [[Hv Hc]|Hv].
      + left. split; [right; split; assumption|]. cbn [iring_step]. rewrite (i_write_over r T b I Hc Hv). reflexivity.
      + right. split; [intros [[]|[Hc Hx]]; destruct Hv; [lia|congruence]|].
        destruct (i_write_eq t Hb r T b I) as (r' & E & I' & A & L); [apply exact_pos; assumption|].
        cbn [iring_step]. rewrite E. cbn [obind fst snd].
        eexists _, _. split; [reflexivity|]. split; [exact I'|]. split; [|exact L].
        unfold lq_step. cbn zeta. rewrite HL. split; [exact A|reflexivity].
    - destruct (Q (Z.min (zlen b) (i_len r))) as [[Hv Hc]|Hv].
      + left. split; [right; split; assumption|]. cbn [iring_step]. rewrite (i_write_all_over r T b I Ho Hc Hv). reflexivity.
      + right. split; [intros [[]|[Hc Hx]]; destruct Hv; [lia|congruence]|].
        destruct (i_write_all_eq t Hb r T b I Ho) as (r' & E & I' & A & L); [apply exact_pos; assumption|].
        cbn [iring_step]. rewrite E. cbn [obind fst snd].
        eexists _, _. split; [reflexivity|]. split; [exact I'|]. split; [|exact L].
        unfold lq_step. cbn zeta. split; [exact A|reflexivity].
    - right. split; [intros [[]|[Hc Hx]]; destruct K0; [lia|congruence]|]. unfold is_usize in Ho.
      destruct (i_read_eq t Hb r T n I) as (r' & E & I' & A & L); [lia|].
      cbn [iring_step]. rewrite E. cbn [obind fst snd].
      eexists _, _. split; [reflexivity|]. split; [exact I'|]. split; [|exact L].
      unfold lq_step. cbn zeta. split; [exact A|reflexivity].
    - right. split; [intros [[]|[Hc Hx]]; destruct K0; [lia|congruence]|]. unfold is_usize in Ho.
      destruct (i_consume_eq t Hb r T I n) as (r' & E & I' & A & L); [lia|].
      cbn [iring_step]. rewrite E. cbn [obind].
      eexists _, _. split; [reflexivity|]. split; [exact I'|]. split; [|exact L].
      unfold lq_step. cbn zeta. split; [exact A|reflexivity].
    - unfold is_usize in Ho. destruct Ho as [Ho1 Ho2].
      destruct (Q (Z.min n (i_len r))) as [[Hv Hc]|Hv].
      + left. split; [right; split; assumption|]. cbn [iring_step].
        rewrite (i_feed_wover r T n I); [reflexivity|lia|exact Hc|exact Hv].
      + right. split; [intros [[]|[Hc Hx]]; destruct Hv; [lia|congruence]|].
        destruct (i_feed_eq t Hb r T I n) as (r' & E & I' & A & L);
          [lia|destruct I; lia|apply exact_pos; assumption|].
        cbn [iring_step]. rewrite E. cbn [obind].
        eexists _, _. split; [reflexivity|]. split; [exact I'|]. split; [|exact L].
        unfold lq_step. cbn zeta. split; [|reflexivity].
        rewrite A. unfold lq_push. rewrite zlen_ztake by lia. rewrite HL.
        rewrite <- HL. rewrite push_as_rotation by (rewrite zlen_ztake by lia; lia).
        rewrite zlen_ztake by lia. rewrite zdrop_min. f_equal.
        rewrite HL. cbn [abst lq_len]. destruct I. lia.
    - unfold is_usize in Ho. cbn [iring_step].
      destruct (Z.leb_spec (i + zlen d) (Z.min (i_len r) max)) as [Hs|Hs].
      + right. split; [intros [Hn|[Hc Hx]]; [apply Hn; lia|destruct K0; [lia|congruence]]|].
        destruct (i_store_ok t Hb r T I max i d) as (r' & E & I' & A & L & _); [lia..|].
        rewrite E. cbn [obind]. eexists _, _. split; [reflexivity|].
        split; [exact I'|]. split; [|exact L].
        unfold lq_step. cbn zeta. split; [exact A|reflexivity].
      + left. split; [left; lia|]. rewrite (i_store_bad t Hb r T I) by lia. reflexivity.
    - right. split; [intros [[]|[Hc Hx]]; destruct K0; [lia|congruence]|]. unfold is_usize in Ho.
      cbn [iring_step]. rewrite (i_read_slice_eq t Hb r T I) by lia. cbn [obind].
      eexists _, _. split; [reflexivity|]. split; [exact I|].
      split; [|reflexivity]. unfold lq_step. cbn zeta. split; reflexivity.
  Qed.

  Lemma irun_exact os : forall r T, iinv t r T -> exact_positions t (i_len r) ->
    Forall (irop_ok t (i_len r)) os ->
    exists res, lqx_run (t_checks t) T (abst r T) os res /\
      match res with
      | Some (q, xs) => exists r' T', iring_run t r os = Ret (r', xs) /\
                          iinv t r' T' /\ abst r' T' = q /\ i_len r' = i_len r
      | None => iring_run t r os = Panic
      end.
  Proof.
    induction os as [|o os IH]; intros r T I X H.
    - exists (Some (abst r T, [])). split; [constructor|]. exists r, T. auto.
    - inversion H as [|? ? Ho Hos]; subst.
      destruct (istep_exact r T o I Ho X) as [[Hp E]|(Hn & r' & x & E & I' & S & L)].
      + exists None. split; [apply lqx_panic; exact Hp|]. cbn [iring_run]. rewrite E. reflexivity.
      + rewrite <- L in X, Hos. destruct (IH r' _ I' X Hos) as (res & Q & M).
        destruct res as [[q xs]|].
        * exists (Some (q, x :: xs)). split; [eapply lqx_ok; eassumption|].
          destruct M as (r2 & T2 & E2 & I2 & A2 & L2).
          exists r2, T2. cbn [iring_run]. rewrite E. cbn [obind fst snd].
          rewrite E2. cbn [obind fst snd]. split; [reflexivity|]. split; [exact I2|]. split; [exact A2|]. lia.
        * exists None. split; [eapply lqx_later; eassumption|].
          cbn [iring_run]. rewrite E. cbn [obind fst]. rewrite M. reflexivity.
  Qed.
End X.
