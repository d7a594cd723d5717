(** [Size] against the specifications of Spec.v. *)
From Coq Require Import Lia.
From Verif Require Import Base Spec SizeModel SizeProofs.

Lemma is_ceil_rup u x r : 0 < u -> is_ceil u x r -> r = rup u x.
Proof.
  intros Hu [Hd [Hx Hl]]. pose proof (rup_spec u x Hu) as [Hd' Hb].
  pose proof (Hl _ Hd' (proj1 Hb)). pose proof (rup_least u x r Hu Hd Hx). lia.
Qed.

Lemma rup_is_ceil u x : 0 < u -> is_ceil u x (rup u x).
Proof.
  intros Hu. pose proof (rup_spec u x Hu) as [Hd Hb].
  split; [exact Hd|]. split; [lia|]. intros. apply rup_least; assumption.
Qed.

Lemma is_floor_eq u x r : 0 < u -> is_floor u x r -> r = u * (x / u).
Proof.
  intros Hu [[q ->] [Hx Hl]].
  pose proof (Z.div_mod x u). pose proof (Z.mod_pos_bound x u).
  assert (u * (x / u) <= q * u) by (apply Hl; [exists (x / u)|]; lia).
  assert (q <= x / u) by (apply Z.div_le_lower_bound; lia). nia.
Qed.

Lemma floor_is_floor u x : 0 < u -> is_floor u x (u * (x / u)).
Proof.
  intros Hu. pose proof (Z.div_mod x u). pose proof (Z.mod_pos_bound x u).
  split; [exists (x / u); lia|]. split; [lia|].
  intros r' [q ->] Hq. assert (q <= x / u) by (apply Z.div_le_lower_bound; lia). nia.
Qed.

Section S.
  Variables (t : target) (u : Z).
  Hypothesis Ht : 0 < t_bits t.
  Hypothesis Hu : pow2 u.
  Hypothesis Hub : u < 2 ^ t_bits t.

  Lemma rup_over len : 2 ^ t_bits t < len + u -> 2 ^ t_bits t <= rup u len.
  Proof.
    intros Hl. pose proof (unit_pos u Hu) as Hp.
    pose proof (rup_spec u len Hp) as [[q Hq] Hb].
    destruct (unit_divides_word t Ht u Hu Hub) as [w Hw].
    assert ((w - 1) * u < q * u) by lia.
    assert (w - 1 < q) by (apply (Z.mul_lt_mono_pos_r u); assumption).
    rewrite Hq, Hw. apply Z.mul_le_mono_nonneg_r; lia.
  Qed.

  Lemma round_exact {E} len c : is_usize t len -> is_ceil u len c ->
    size_round (E:=E) t u len =
      if t_checks t then (if len + u <? 2 ^ t_bits t then Ret c else Panic)
      else Ret (if c <? 2 ^ t_bits t then c else 0).
  Proof.
    intros Hl Hc. pose proof (unit_pos u Hu) as Hp.
    pose proof (rup_spec u len Hp) as [Hd Hb].
    rewrite (is_ceil_rup u len c Hp Hc). unfold is_usize in Hl.
    destruct (Z.ltb_spec (len + u) (2 ^ t_bits t)) as [H|H].
    - rewrite size_round_in by (assumption || lia). fold (rup u len).
      destruct (Z.ltb_spec (rup u len) (2 ^ t_bits t)); [|lia].
      destruct (t_checks t); reflexivity.
    - destruct (Z.eq_dec (len + u) (2 ^ t_bits t)) as [He|He].
      + rewrite size_round_edge by assumption. destruct (t_checks t); [reflexivity|].
        destruct (unit_divides_word t Ht u Hu Hub) as [w Hw].
        rewrite rup_mult by (try assumption; exists (w - 1); lia).
        destruct (Z.ltb_spec len (2 ^ t_bits t)); [reflexivity|lia].
      + rewrite size_round_over by (assumption || lia).
        pose proof (rup_over len ltac:(lia)).
        destruct (Z.ltb_spec (rup u len) (2 ^ t_bits t)); [lia|].
        destruct (t_checks t); reflexivity.
  Qed.

  Lemma truncate_offset_exact {E} len a :
    is_usize t len -> is_floor u len a ->
    size_truncate (E:=E) t u len = Ret a /\
    size_offset (E:=E) t u len = Ret (len - a) /\ 0 <= len - a < u.
  Proof.
    intros Hl Ha. pose proof (unit_pos u Hu) as Hp.
    rewrite (is_floor_eq u len a Hp Ha).
    rewrite size_truncate_eq, size_offset_eq by assumption.
    pose proof (Z.div_mod len u). pose proof (Z.mod_pos_bound len u).
    split; [reflexivity|]. split; [f_equal; lia|lia].
  Qed.

  Lemma ushr_unit {E} x : ushr (E:=E) t x (trailing_zeros t u) = Ret (x / u).
  Proof.
    destruct (unit_exp t Ht u Hu Hub) as [k [Hk He]]. rewrite He, trailing_zeros_pow2 by lia.
    unfold ushr. rewrite (proj2 (Z.ltb_lt k (t_bits t))) by lia. reflexivity.
  Qed.

  Lemma count_exact {E} len n :
    is_usize t len -> is_ceil u len (n * u) ->
    size_count (E:=E) t u len =
      if t_checks t then (if len + u <? 2 ^ t_bits t then Ret (n mod 2 ^ 32) else Panic)
      else Ret (if n * u <? 2 ^ t_bits t then n mod 2 ^ 32 else 0).
  Proof.
    intros Hl Hc. pose proof (unit_pos u Hu) as Hp. unfold size_count.
    rewrite (round_exact len (n * u)) by assumption.
    assert (Hn : n * u / u = n) by (apply Z.div_mul; lia).
    destruct (t_checks t); [destruct (len + u <? _)|destruct (n * u <? _)]; cbn [obind];
      rewrite ?ushr_unit; cbn [obind]; unfold as_u32; rewrite ?Hn; try reflexivity.
  Qed.

  Lemma size_exact {E} n : 0 <= n < 2 ^ 32 -> 32 <= t_bits t ->
    size_size (E:=E) t u n = Ret ((n * u) mod 2 ^ t_bits t).
  Proof.
    intros Hn Hb. apply size_size_eq; try assumption.
    unfold is_usize. pose proof (Z.pow_le_mono_r 2 32 (t_bits t)). lia.
  Qed.

  Lemma bounds_exact {E} ptr len a e :
    is_usize t ptr -> is_usize t len ->
    is_floor u ptr a -> is_ceil u (ptr + len) e ->
    (t_checks t = true ->
     size_bounds (E:=E) t u ptr len =
       if len + (ptr - a) + u <? 2 ^ t_bits t then Ret (a, e - a) else Panic) /\
    (len + (ptr - a) + u < 2 ^ t_bits t ->
     size_bounds (E:=E) t u ptr len = Ret (a, e - a)).
  Proof.
    intros Hptr Hlen Ha He. pose proof (unit_pos u Hu) as Hp.
    rewrite (is_floor_eq u ptr a Hp Ha), (is_ceil_rup u _ e Hp He).
    pose proof (Z.div_mod ptr u). pose proof (Z.mod_pos_bound ptr u).
    assert (Hm : ptr - u * (ptr / u) = ptr mod u) by lia. rewrite Hm.
    assert (Heq : len + ptr mod u + u < 2 ^ t_bits t ->
       size_bounds (E:=E) t u ptr len =
       Ret (u * (ptr / u), rup u (ptr + len) - u * (ptr / u))).
    { intros Hb. unfold is_usize in Hlen.
      rewrite size_bounds_in by (assumption || lia). f_equal. f_equal.
      unfold rup.
      replace (ptr + len + u - 1) with (len + ptr mod u + u - 1 + (ptr / u) * u) by lia.
      rewrite Z.div_add by lia. lia. }
    split; [|exact Heq]. intros Hc.
    destruct (Z.ltb_spec (len + ptr mod u + u) (2 ^ t_bits t)) as [Hb|Hb]; [exact (Heq Hb)|].
    unfold size_bounds. rewrite size_offset_eq by assumption. cbn [obind].
    unfold uadd, wrap. rewrite Hc. unfold is_usize in *.
    destruct ((0 <=? len + ptr mod u) && (len + ptr mod u <? 2 ^ t_bits t)) eqn:Hr;
      [|reflexivity].
    cbn [obind]. apply andb_prop in Hr. destruct Hr as [Hr1 Hr2].
    apply Z.leb_le in Hr1. apply Z.ltb_lt in Hr2.
    rewrite (round_exact (len + ptr mod u) (rup u (len + ptr mod u)));
      [|unfold is_usize; lia|apply rup_is_ceil; assumption].
    rewrite Hc. destruct (Z.ltb_spec (len + ptr mod u + u) (2 ^ t_bits t)); [lia|reflexivity].
  Qed.
End S.

Lemma size_exact_good : forall (E : Type) t u n,
  good_target t -> pow2 u -> u < 2 ^ t_bits t -> 0 <= n < 2 ^ 32 ->
  size_size (E:=E) t u n = Ret ((n * u) mod 2 ^ t_bits t).
Proof. intros E t u n Hg Hu Hub Hn. pose proof (bits_pos t Hg). apply size_exact; (assumption || lia). Qed.

Lemma size_of_count : forall (E : Type) t u len n c r,
  good_target t -> pow2 u -> u < 2 ^ t_bits t -> is_usize t len ->
  is_ceil u len (n * u) -> n < 2 ^ 32 ->
  size_count (E:=E) t u len = Ret c -> size_size (E:=E) t u c = Ret r ->
  size_round (E:=E) t u len = Ret r.
Proof.
  intros E t u len n c r Hg Hu Hub Hl Hc Hn H1 H2.
  pose proof (bits_pos t Hg) as Hb.
  rewrite (count_exact t u ltac:(lia) Hu Hub len n Hl Hc) in H1.
  rewrite (round_exact t u ltac:(lia) Hu Hub len (n * u) Hl Hc).
  assert (Hn0 : 0 <= n).
  { destruct Hc as [_ [Hc _]]. pose proof (pow2_pos u Hu). unfold is_usize in Hl. nia. }
  assert (Hm : n mod 2 ^ 32 = n) by (apply Z.mod_small; lia). rewrite Hm in H1.
  assert (Hend : len + u < 2 ^ t_bits t -> n * u < 2 ^ t_bits t).
  { intros Hs. pose proof (pow2_pos u Hu) as Hp.
    rewrite (is_ceil_rup u len (n * u) Hp Hc). pose proof (rup_spec u len Hp). lia. }
  assert (Hsz : 0 <= n * u < 2 ^ t_bits t -> (n * u) mod 2 ^ t_bits t = n * u)
    by (intros; apply Z.mod_small; assumption).
  assert (Hnu : 0 <= n * u) by (pose proof (pow2_pos u Hu); nia).
  destruct (t_checks t).
  - destruct (Z.ltb_spec (len + u) (2 ^ t_bits t)) as [Hs|]; [|discriminate].
    injection H1 as <-. rewrite (size_exact_good E t u n Hg Hu Hub ltac:(lia)) in H2.
    rewrite (Hsz ltac:(split; [exact Hnu|apply Hend; exact Hs])) in H2. exact H2.
  - destruct (Z.ltb_spec (n * u) (2 ^ t_bits t)) as [Hs|]; injection H1 as <-.
    + rewrite (size_exact_good E t u n Hg Hu Hub ltac:(lia)) in H2.
      rewrite (Hsz ltac:(lia)) in H2. exact H2.
    + rewrite (size_exact_good E t u 0 Hg Hu Hub ltac:(lia)) in H2.
      rewrite Z.mul_0_l, Z.mod_0_l in H2 by (apply Z.pow_nonzero; lia). exact H2.
Qed.

Lemma bounds_minimal : forall (E : Type) t u ptr len s n,
  0 < t_bits t -> pow2 u -> u < 2 ^ t_bits t -> is_usize t ptr -> is_usize t len ->
  len + ptr mod u + u < 2 ^ t_bits t ->
  size_bounds (E:=E) t u ptr len = Ret (s, n) ->
  (u | s) /\ (u | n) /\ s <= ptr /\ ptr + len <= s + n /\
  forall s' n', (u | s') -> (u | n') -> s' <= ptr -> ptr + len <= s' + n' ->
    s' <= s /\ s + n <= s' + n'.
Proof.
  intros E t u ptr len s n Ht Hu Hub Hp Hl Hb H. pose proof (pow2_pos u Hu) as Hpos.
  pose proof (floor_is_floor u ptr Hpos) as Hf.
  pose proof (rup_is_ceil u (ptr + len) Hpos) as Hc.
  pose proof (bounds_exact (E:=E) t u Ht Hu Hub ptr len _ _ Hp Hl Hf Hc) as [_ HR].
  pose proof (Z.div_mod ptr u ltac:(lia)) as Hdm.
  rewrite HR in H by lia. injection H as <- <-.
  destruct Hf as [Hf1 [Hf2 Hf3]]. destruct Hc as [Hc1 [Hc2 Hc3]].
  split; [exact Hf1|]. split; [apply Z.divide_sub_r; assumption|].
  split; [exact Hf2|]. split; [lia|].
  intros s' n' Hs Hn Hs1 Hs2. split; [apply Hf3; assumption|].
  replace (u * (ptr / u) + (rup u (ptr + len) - u * (ptr / u))) with (rup u (ptr + len)) by lia.
  apply Hc3; [apply Z.divide_add_r; assumption|exact Hs2].
Qed.

