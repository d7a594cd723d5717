(** Lemmas about machine arithmetic and [Size]. *)
From Coq Require Import Lia.
From Verif Require Import Base SizeModel.

Lemma pow2_pos u : pow2 u -> 0 < u.
Proof. intros [k [Hk ->]]. apply Z.pow_pos_nonneg; lia. Qed.

Lemma pow2_le_exp k w : 0 <= k -> 0 <= w -> 2 ^ k <= 2 ^ w -> k <= w.
Proof.
  intros Hk Hw H. destruct (Z_le_gt_dec k w) as [|G]; [assumption|].
  assert (2 ^ w < 2 ^ k) by (apply Z.pow_lt_mono_r; lia). lia.
Qed.

Lemma pow2_divide u v : pow2 u -> pow2 v -> u <= v -> (u | v).
Proof.
  intros [k [Hk ->]] [j [Hj ->]] H.
  assert (k <= j) by (apply pow2_le_exp; lia).
  exists (2 ^ (j - k)). rewrite <- Z.pow_add_r by lia. f_equal. lia.
Qed.

Lemma wrap_in {E} c n x : 0 <= x < 2 ^ n -> wrap (E:=E) c n x = Ret x.
Proof.
  intros [H1 H2]. unfold wrap.
  rewrite (proj2 (Z.leb_le 0 x) H1), (proj2 (Z.ltb_lt x (2 ^ n)) H2). reflexivity.
Qed.

Lemma wrap_out {E} c n x : ~ (0 <= x < 2 ^ n) ->
  wrap (E:=E) c n x = if c then Panic else Ret (x mod 2 ^ n).
Proof.
  intros H. unfold wrap.
  destruct (Z.leb_spec 0 x); destruct (Z.ltb_spec x (2 ^ n)); cbn; try reflexivity; lia.
Qed.

Lemma bits_pos t : good_target t -> 32 <= t_bits t.
Proof. intros [[H|H] _]; lia. Qed.

Lemma land_unot w len k :
  0 <= k <= w -> 0 <= len < 2 ^ w ->
  Z.land len (2 ^ w - 1 - (2 ^ k - 1)) = 2 ^ k * (len / 2 ^ k).
Proof.
  intros Hk Hl.
  replace (2 ^ w - 1 - (2 ^ k - 1)) with (Z.shiftl (Z.ones (w - k)) k).
  2:{ rewrite Z.shiftl_mul_pow2 by lia. rewrite Z.ones_equiv.
      unfold Z.pred. rewrite Z.mul_add_distr_r.
      rewrite <- Z.pow_add_r by lia. replace (w - k + k) with w by lia. lia. }
  rewrite (Z.mul_comm (2 ^ k)).
  rewrite <- Z.shiftr_div_pow2, <- Z.shiftl_mul_pow2 by lia.
  apply Z.bits_inj'. intros n Hn.
  rewrite Z.land_spec.
  destruct (Z_lt_le_dec n k) as [Hlt|Hge].
  - rewrite !Z.shiftl_spec_low by lia. apply andb_false_r.
  - rewrite !Z.shiftl_spec by lia. rewrite Z.shiftr_spec by lia.
    replace (n - k + k) with n by lia.
    destruct (Z_lt_le_dec n w).
    + rewrite Z.ones_spec_low by lia. apply andb_true_r.
    + rewrite Z.ones_spec_high by lia. rewrite andb_false_r.
      symmetry. replace len with (len mod 2 ^ w) by (apply Z.mod_small; lia).
      apply Z.mod_pow2_bits_high. lia.
Qed.

Lemma land_mask len k : 0 <= k -> Z.land len (2 ^ k - 1) = len mod 2 ^ k.
Proof.
  intros Hk. rewrite <- Z.land_ones by lia. rewrite Z.ones_equiv. reflexivity.
Qed.

Lemma ctz_pos_pow2 n : ctz_pos (Pos.pow 2 n) = Zpos n.
Proof.
  induction n as [|n IH] using Pos.peano_ind.
  - reflexivity.
  - rewrite Pos.pow_succ_r. cbn [Pos.mul ctz_pos].
    change (2 * 2 ^ n)%positive with ((2 ^ n)~0)%positive. cbn [ctz_pos].
    rewrite IH. lia.
Qed.

Lemma trailing_zeros_pow2 t k : 0 <= k -> trailing_zeros t (2 ^ k) = k.
Proof.
  intros Hk. destruct k as [|p|p]; try lia.
  - reflexivity.
  - change (Z.pow 2 (Z.pos p)) with (Z.pow (Z.pos 2) (Z.pos p)).
    rewrite <- Pos2Z.inj_pow. cbn [trailing_zeros]. apply ctz_pos_pow2.
Qed.

Section Unit.
  Variable t : target.
  Hypothesis Ht : 0 < t_bits t.
  Variable u : Z.
  Hypothesis Hu : pow2 u.
  Hypothesis Hub : u < 2 ^ t_bits t.

  Lemma unit_pos : 0 < u.
  Proof. apply pow2_pos, Hu. Qed.

  Lemma unit_exp : exists k, 0 <= k < t_bits t /\ u = 2 ^ k.
  Proof.
    destruct Hu as [k [Hk He]]. exists k. split; [|exact He].
    split; [exact Hk|]. apply (Z.pow_lt_mono_r_iff 2); lia.
  Qed.

  Lemma unit_divides_word : (u | 2 ^ t_bits t).
  Proof.
    destruct unit_exp as [k [Hk ->]]. exists (2 ^ (t_bits t - k)).
    rewrite <- Z.pow_add_r by lia. f_equal. lia.
  Qed.

  Lemma usub_unit {E} : usub (E:=E) t u 1 = Ret (u - 1).
  Proof. apply wrap_in. pose proof unit_pos. lia. Qed.

  Lemma size_truncate_eq {E} len : is_usize t len ->
    size_truncate (E:=E) t u len = Ret (u * (len / u)).
  Proof.
    intros Hl. unfold size_truncate. rewrite usub_unit. cbn [obind].
    destruct unit_exp as [k [Hk He]]. f_equal. unfold unot. rewrite He.
    apply land_unot; [lia|exact Hl].
  Qed.

  Lemma size_offset_eq {E} len : is_usize t len ->
    size_offset (E:=E) t u len = Ret (len mod u).
  Proof.
    intros Hl. unfold size_offset. rewrite usub_unit. cbn [obind].
    destruct unit_exp as [k [Hk He]]. f_equal. rewrite He. apply land_mask. lia.
  Qed.

  Lemma size_round_in {E} len : 0 <= len -> len + u < 2 ^ t_bits t ->
    size_round (E:=E) t u len = Ret (u * ((len + u - 1) / u)).
  Proof.
    intros H0 Hl. pose proof unit_pos. unfold size_round, uadd.
    rewrite wrap_in by lia. cbn [obind]. unfold usub. rewrite wrap_in by lia.
    cbn [obind]. apply size_truncate_eq. unfold is_usize. lia.
  Qed.

  Lemma size_round_edge {E} len : len + u = 2 ^ t_bits t ->
    size_round (E:=E) t u len = if t_checks t then Panic else Ret len.
  Proof.
    intros Hl. pose proof unit_pos. unfold size_round, uadd.
    rewrite wrap_out by lia. destruct (t_checks t) eqn:Hc; [reflexivity|].
    cbn [obind]. rewrite Hl, Z_mod_same_full. unfold usub.
    rewrite wrap_out by lia. rewrite Hc. cbn [obind].
    replace ((0 - 1) mod 2 ^ t_bits t) with (2 ^ t_bits t - 1).
    2:{ apply (Z.mod_unique _ _ (-1)); lia. }
    rewrite size_truncate_eq by (unfold is_usize; lia).
    f_equal. destruct unit_divides_word as [q Hq]. rewrite Hq.
    replace (q * u - 1) with ((q - 1) * u + (u - 1)) by lia.
    rewrite Z.div_add_l by lia. rewrite Z.div_small by lia. lia.
  Qed.

  Lemma size_round_over {E} len : is_usize t len -> 2 ^ t_bits t < len + u ->
    size_round (E:=E) t u len = if t_checks t then Panic else Ret 0.
  Proof.
    intros Hr Hl. unfold is_usize in Hr. pose proof unit_pos. unfold size_round, uadd.
    rewrite wrap_out by lia. destruct (t_checks t) eqn:Hc; [reflexivity|].
    cbn [obind].
    replace ((len + u) mod 2 ^ t_bits t) with (len + u - 2 ^ t_bits t).
    2:{ apply (Z.mod_unique _ _ 1); lia. }
    unfold usub. rewrite wrap_in by lia. cbn [obind].
    rewrite size_truncate_eq by (unfold is_usize; lia).
    f_equal. rewrite Z.div_small by lia. lia.
  Qed.

  Lemma size_size_eq {E} n : is_usize t n ->
    size_size (E:=E) t u n = Ret ((n * u) mod 2 ^ t_bits t).
  Proof.
    intros Hn. unfold size_size, as_usize.
    rewrite (Z.mod_small n) by exact Hn.
    destruct unit_exp as [k [Hk He]]. rewrite He, trailing_zeros_pow2 by lia.
    unfold ushl. rewrite (proj2 (Z.ltb_lt k (t_bits t))) by lia. reflexivity.
  Qed.

  Lemma size_count_in {E} len : 0 <= len -> len + u < 2 ^ t_bits t ->
    size_count (E:=E) t u len = Ret (((len + u - 1) / u) mod 2 ^ 32).
  Proof.
    intros H0 Hl. unfold size_count. rewrite size_round_in by assumption.
    cbn [obind]. destruct unit_exp as [k [Hk He]].
    assert (Hs : forall x, ushr (E:=E) t (u * x) (trailing_zeros t u) = Ret x).
    { intros x. rewrite He, trailing_zeros_pow2 by lia. unfold ushr.
      rewrite (proj2 (Z.ltb_lt k (t_bits t))) by lia. f_equal.
      rewrite Z.mul_comm. apply Z.div_mul. rewrite <- He. pose proof unit_pos. lia. }
    rewrite Hs. reflexivity.
  Qed.

  Lemma size_bounds_in {E} ptr len :
    is_usize t ptr -> 0 <= len -> len + ptr mod u + u < 2 ^ t_bits t ->
    size_bounds (E:=E) t u ptr len =
      Ret (u * (ptr / u), u * ((len + ptr mod u + u - 1) / u)).
  Proof.
    intros Hp H0 Hl. unfold size_bounds. rewrite size_offset_eq by assumption.
    cbn [obind]. pose proof unit_pos. pose proof (Z.mod_pos_bound ptr u).
    unfold uadd. rewrite wrap_in by lia. cbn [obind].
    rewrite size_round_in by lia. cbn [obind].
    f_equal. f_equal. rewrite (Z.div_mod ptr u) at 1 by lia. lia.
  Qed.
End Unit.

(** Rounding up: the ceiling-multiple function and its characterisation. *)
Definition rup (u x : Z) : Z := u * ((x + u - 1) / u).

Lemma rup_spec u x : 0 < u -> (u | rup u x) /\ x <= rup u x < x + u.
Proof.
  intros Hu. unfold rup. split; [exists ((x + u - 1) / u); lia|].
  pose proof (Z.div_mod (x + u - 1) u). pose proof (Z.mod_pos_bound (x + u - 1) u). lia.
Qed.

Lemma rup_least u x r : 0 < u -> (u | r) -> x <= r -> rup u x <= r.
Proof.
  intros Hu [q ->] Hx. pose proof (rup_spec u x Hu) as [[p Hp] Hb].
  rewrite Hp in *. clear Hp.
  assert (H : p * u < (q + 1) * u) by lia.
  apply Z.mul_lt_mono_pos_r in H; [|exact Hu].
  apply Z.mul_le_mono_nonneg_r; lia.
Qed.

Lemma rup_mult u x : 0 < u -> (u | x) -> rup u x = x.
Proof.
  intros Hu [q ->]. unfold rup. replace (q * u + u - 1) with (q * u + (u - 1)) by lia.
  rewrite Z.div_add_l by lia. rewrite Z.div_small by lia. lia.
Qed.

Lemma rup_0 u : 0 < u -> rup u 0 = 0.
Proof. intros. apply rup_mult; [assumption|]. exists 0. lia. Qed.
