(** Proofs about the scalar accessors. *)
From Coq Require Import Lia.
From Verif Require Import Base ErrorModel SizeModel SizeProofs SeqProofs OsModel MapModel SpanModel SpanSpec.

(** ** Representation of integers *)
Lemma to_le_length n : forall v, length (to_le n v) = n.
Proof. induction n; cbn; intros v; [|rewrite IHn]; reflexivity. Qed.

Lemma to_le_nth n : forall v k d, (k < n)%nat -> nth k (to_le n v) d = (v / 256 ^ Z.of_nat k) mod 256.
Proof.
  induction n as [|n IH]; intros v k d H; [lia|]. cbn [to_le]. destruct k as [|k]; cbn [nth].
  - rewrite Z.pow_0_r, Z.div_1_r. reflexivity.
  - rewrite IH by lia. f_equal. rewrite Nat2Z.inj_succ, Z.pow_succ_r by lia. rewrite Z.div_div by lia. reflexivity.
Qed.

Lemma to_le_byte n : forall v, Forall (fun b : byte => 0 <= b < 256) (to_le n v).
Proof. induction n; cbn; intros v; constructor; [apply Z.mod_pos_bound; lia|apply IHn]. Qed.

Lemma from_to n : forall v, from_le (to_le n v) = v mod 256 ^ Z.of_nat n.
Proof.
  induction n as [|n IH]; intros v; [cbn; rewrite Z.mod_1_r; reflexivity|].
  rewrite Nat2Z.inj_succ, Z.pow_succ_r by lia. cbn [to_le from_le]. rewrite IH.
  symmetry. apply Z.rem_mul_r; lia.
Qed.

Lemma from_bound (l : bytes) : Forall (fun b : byte => 0 <= b < 256) l -> 0 <= from_le l < 256 ^ Z.of_nat (length l).
Proof.
  induction l as [|b l IH]; intros F; [cbn; lia|]. inversion F; subst. specialize (IH H2).
  cbn [length from_le]. rewrite Nat2Z.inj_succ, Z.pow_succ_r by lia. lia.
Qed.

Lemma to_from (l : bytes) : Forall (fun b : byte => 0 <= b < 256) l -> to_le (length l) (from_le l) = l.
Proof.
  induction l as [|b l IH]; intros F; [reflexivity|]. inversion F; subst. cbn [length to_le from_le].
  replace (b + 256 * from_le l) with (b + from_le l * 256) by lia. rewrite Z.mod_add, Z.div_add by lia.
  rewrite Z.mod_small, Z.div_small by lia. rewrite Z.add_0_l, IH by assumption. reflexivity.
Qed.

Lemma to_le_mod n : forall v, to_le n (v mod 256 ^ Z.of_nat n) = to_le n v.
Proof.
  intros v. rewrite <- from_to. rewrite <- (to_le_length n v) at 1. apply to_from, to_le_byte.
Qed.

Section Values.
  Variable t : target.
  Hypothesis Ht : good_target t.

  Lemma size_of_pos ty : 1 <= size_of t ty <= 16.
  Proof. destruct Ht as ([B|B] & _); destruct ty; cbn; rewrite ?B; try (change (32 / 8) with 4); try (change (64 / 8) with 8); lia. Qed.

  Lemma pow_bytes ty : 256 ^ Z.of_nat (Z.to_nat (size_of t ty)) = 2 ^ (8 * size_of t ty).
  Proof.
    pose proof (size_of_pos ty). rewrite Z2Nat.id by lia. change 256 with (2 ^ 8). rewrite <- Z.pow_mul_r by lia. reflexivity.
  Qed.

  Variable B : abi.

  Lemma encode_length ty v : length (encode t B ty v) = Z.to_nat (size_of t ty).
  Proof. unfold encode. destruct (big_endian B); rewrite ?rev_length; apply to_le_length. Qed.
  Lemma encode_byte ty v : Forall (fun b : byte => 0 <= b < 256) (encode t B ty v).
  Proof. unfold encode. destruct (big_endian B); [apply Forall_rev|]; apply to_le_byte. Qed.

  Lemma encode_nth ty v k : 0 <= k < size_of t ty ->
    nth (Z.to_nat k) (encode t B ty v) 0 = byte_of (big_endian B) (size_of t ty) v k.
  Proof.
    intros H. unfold encode, byte_of. destruct (big_endian B).
    - rewrite rev_nth by (rewrite to_le_length; lia). rewrite to_le_length, to_le_nth by lia.
      replace (Z.of_nat _) with (size_of t ty - 1 - k) by lia. reflexivity.
    - rewrite to_le_nth by lia. rewrite Z2Nat.id by lia. reflexivity.
  Qed.

  Lemma value_split n : 1 <= n -> 2 ^ (8 * n) = 2 * 2 ^ (8 * n - 1) /\ 0 < 2 ^ (8 * n - 1).
  Proof.
    intros H. replace (8 * n) with (Z.succ (8 * n - 1)) at 1 by lia. rewrite Z.pow_succ_r by lia.
    split; [reflexivity|apply Z.pow_pos_nonneg; lia].
  Qed.

  Lemma decode_encode ty v : value_ok (is_signed ty) (size_of t ty) v -> decode t B ty (encode t B ty v) = v.
  Proof.
    intros H. pose proof (size_of_pos ty) as Sz. destruct (value_split (size_of t ty) ltac:(lia)) as [V1 V2].
    unfold decode; cbv zeta.
    assert (E : from_le (if big_endian B then rev (encode t B ty v) else encode t B ty v) = v mod 2 ^ (8 * size_of t ty)).
    { unfold encode; cbv zeta. destruct (big_endian B); rewrite ?rev_involutive, from_to, pow_bytes; reflexivity. }
    rewrite E. unfold value_ok in H. destruct (is_signed ty); cbn [andb].
    - destruct (Z.leb_spec 0 v).
      + rewrite Z.mod_small by lia. destruct (Z.leb_spec (2 ^ (8 * size_of t ty - 1)) v); lia.
      + rewrite <- (Z.mod_add v 1), Z.mod_small by lia.
        destruct (Z.leb_spec (2 ^ (8 * size_of t ty - 1)) (v + 1 * 2 ^ (8 * size_of t ty))); lia.
    - apply Z.mod_small. lia.
  Qed.

  Lemma decode_spec ty (l : bytes) : length l = Z.to_nat (size_of t ty) -> Forall (fun b : byte => 0 <= b < 256) l ->
    value_ok (is_signed ty) (size_of t ty) (decode t B ty l) /\ encode t B ty (decode t B ty l) = l.
  Proof.
    intros L F. pose proof (size_of_pos ty) as Sz. destruct (value_split (size_of t ty) ltac:(lia)) as [V1 V2].
    set (k := if big_endian B return bytes then rev l else l).
    assert (Fk : Forall (fun b : byte => 0 <= b < 256) k) by (unfold k; destruct (big_endian B); [apply Forall_rev|]; assumption).
    assert (Lk : length k = Z.to_nat (size_of t ty)) by (unfold k; destruct (big_endian B); rewrite ?rev_length; exact L).
    pose proof (from_bound k Fk) as Bk. rewrite Lk, pow_bytes in Bk.
    assert (T : forall v, v mod 2 ^ (8 * size_of t ty) = from_le k -> encode t B ty v = l).
    { intros v Ev. unfold encode. rewrite <- to_le_mod, pow_bytes, Ev. rewrite <- Lk, to_from by assumption.
      unfold k. destruct (big_endian B); rewrite ?rev_involutive; reflexivity. }
    unfold decode; cbv zeta. fold k. unfold value_ok.
    destruct (is_signed ty); cbn [andb].
    - destruct (Z.leb_spec (2 ^ (8 * size_of t ty - 1)) (from_le k)).
      + split; [lia|]. apply T. rewrite <- (Z.mod_add _ 1) by lia. rewrite Z.mod_small by lia. lia.
      + split; [lia|]. apply T, Z.mod_small. lia.
    - split; [lia|]. apply T, Z.mod_small. lia.
  Qed.
End Values.

Section Accesses.
  Variable t : target.
  Hypothesis Ht : good_target t.
  Variable B : abi.
  Context {S : Type}.
  Variable M : memory S.

  (** ** The checks *)
  Lemma capacity_spec ty off len : is_usize t off ->
    assert_capacity t ty off len =
      if off + size_of t ty <? 2 ^ t_bits t then (if len <? off + size_of t ty then Panic else Ret tt)
      else if t_checks t then Panic
      else if len <? off + size_of t ty - 2 ^ t_bits t then Panic else Ret tt.
  Proof.
    intros [O1 O2]. pose proof (size_of_pos t Ht ty) as Sz. unfold assert_capacity, uadd.
    assert (W : 2 ^ 32 <= 2 ^ t_bits t) by (destruct Ht as ([->| ->] & _); vm_compute; discriminate).
    change (2 ^ 32) with 4294967296 in W.
    destruct (Z.ltb_spec (off + size_of t ty) (2 ^ t_bits t)).
    - rewrite wrap_in by lia. reflexivity.
    - rewrite wrap_out by lia. destruct (t_checks t); [reflexivity|]. cbn [obind].
      replace ((off + size_of t ty) mod 2 ^ t_bits t) with (off + size_of t ty - 2 ^ t_bits t); [reflexivity|].
      rewrite <- (Z.mod_add _ (-1)) by lia. rewrite Z.mod_small by lia. lia.
  Qed.

  Lemma outside ty off m x s : is_usize t off -> is_usize t (m_len m) ->
    (off + size_of t ty < 2 ^ t_bits t \/ t_checks t = true) -> m_len m < off + size_of t ty ->
    perform t B M m ty off x s = (Panic, s).
  Proof.
    intros O L Fit H.
    assert (C : assert_capacity t ty off (m_len m) = Panic).
    { rewrite capacity_spec by assumption. destruct (Z.ltb_spec (off + size_of t ty) (2 ^ t_bits t)).
      - destruct (Z.ltb_spec (m_len m) (off + size_of t ty)); [reflexivity|lia].
      - destruct Fit as [|Fit]; [lia|]. rewrite Fit. reflexivity. }
    destruct x; cbn [perform]; unfold read_volatile, read_unaligned, write_volatile, write_unaligned; rewrite C; reflexivity.
  Qed.

  Section In.
    Variable m : mapping.
    Hypothesis Hm : span_ok t m.
    Variable ty : scalar.
    Variable off : Z.
    Hypothesis H0 : 0 <= off.
    Hypothesis H1 : off + size_of t ty <= m_len m.

    Lemma inside_capacity : assert_capacity t ty off (m_len m) = Ret tt.
    Proof.
      destruct Hm as (P & L & E). pose proof (size_of_pos t Ht ty). rewrite capacity_spec by (unfold is_usize; lia).
      destruct (Z.ltb_spec (off + size_of t ty) (2 ^ t_bits t)); [|lia].
      destruct (Z.ltb_spec (m_len m) (off + size_of t ty)); [lia|reflexivity].
    Qed.

    Lemma at_ptr i : 0 <= i < m_len m -> ptr_add t (m_ptr m) i = m_ptr m + i.
    Proof. intros. destruct Hm as (P & L & E). unfold ptr_add, as_usize. apply Z.mod_small. lia. Qed.

    Lemma off_ptr : ptr_add t (m_ptr m) off = m_ptr m + off.
    Proof. apply at_ptr. pose proof (size_of_pos t Ht ty). lia. Qed.

    Lemma alignment_spec : assert_alignment t B ty off (m_ptr m) =
      if (m_ptr m + off) mod align_of B ty =? 0 then Ret tt else Panic.
    Proof. unfold assert_alignment. rewrite off_ptr. destruct (_ =? 0); reflexivity. Qed.

    Lemma load_spec s f : content M s m f -> forall n i, 0 <= i -> i + Z.of_nat n <= m_len m ->
      load_bytes t M n (m_ptr m + i) s = Ret (view f i (Z.of_nat n)).
    Proof.
      intros C n. induction n as [|n IH]; intros i Hi Hn; [reflexivity|].
      cbn [load_bytes]. rewrite C by lia. cbn [obind].
      rewrite (view_cons _ _ (Z.of_nat (Datatypes.S n))) by lia. destruct n as [|n].
      - cbn [load_bytes obind]. reflexivity.
      - replace (ptr_add t (m_ptr m + i) 1) with (m_ptr m + (i + 1)).
        + rewrite IH by lia. cbn [obind]. repeat f_equal. lia.
        + destruct Hm as (P & L & E). unfold ptr_add, as_usize. rewrite Z.mod_small; lia.
    Qed.

    Lemma read_unaligned_spec s f : content M s m f ->
      read_unaligned t B M m ty off s = (Ret (decode t B ty (view f off (size_of t ty))), s).
    Proof.
      intros C. unfold read_unaligned. rewrite inside_capacity, off_ptr. cbn [obind].
      pose proof (size_of_pos t Ht ty). rewrite (load_spec s f C) by lia. rewrite Z2Nat.id by lia. reflexivity.
    Qed.
    Lemma read_volatile_spec s f : content M s m f ->
      read_volatile t B M m ty off s =
        if (m_ptr m + off) mod align_of B ty =? 0 then read_unaligned t B M m ty off s else (Panic, s).
    Proof.
      intros C. unfold read_volatile, read_unaligned. rewrite inside_capacity, alignment_spec. cbn [obind].
      destruct (_ =? 0); reflexivity.
    Qed.
    Lemma write_volatile_spec v s :
      write_volatile t B M m ty off v s =
        if (m_ptr m + off) mod align_of B ty =? 0 then write_unaligned t B M m ty off v s else (Panic, s).
    Proof.
      unfold write_volatile, write_unaligned. rewrite inside_capacity, alignment_spec. cbn [after].
      destruct (_ =? 0); reflexivity.
    Qed.

    (** Overwriting part of an array. *)
    Definition over (f : Z -> byte) (o n : Z) (g : Z -> byte) : Z -> byte :=
      fun i => if (o <=? i) && (i <? o + n) then g (i - o) else f i.

    Lemma content_ext s f g : content M s m f -> (forall i, 0 <= i < m_len m -> f i = g i) -> content M s m g.
    Proof. intros C E i Hi. rewrite <- E by exact Hi. apply C, Hi. Qed.

    Lemma store_spec I (A : array_like M m I) : forall l s f i, I s -> content M s m f -> 0 <= i -> i + zlen l <= m_len m ->
      exists s', store_bytes t M (m_ptr m + i) l s = (Ret tt, s') /\ I s' /\
        content M s' m (over f i (zlen l) (fun k => nth (Z.to_nat k) l 0)).
    Proof.
      induction l as [|b l IH]; intros s f i Is C Hi Hl.
      - exists s. split; [reflexivity|]. split; [exact Is|]. apply (content_ext s f); [exact C|]. intros j Hj. unfold over.
        change (zlen (@nil byte)) with 0. destruct (Z.leb_spec i j), (Z.ltb_spec j (i + 0)); cbn; try reflexivity. lia.
      - rewrite zlen_cons in *. pose proof (zlen_nonneg l). cbn [store_bytes].
        destruct (A s f i b Is C ltac:(lia)) as (s1 & E1 & I1 & C1). rewrite E1.
        destruct l as [|c l].
        + exists s1. split; [reflexivity|]. split; [exact I1|]. apply (content_ext s1 (upd f i b)); [exact C1|].
          intros j Hj. unfold over, upd. change (zlen (@nil byte)) with 0.
          destruct (Z.eqb_spec j i), (Z.leb_spec i j), (Z.ltb_spec j (i + (1 + 0))); try lia; cbn [andb]; try reflexivity.
          subst j. rewrite Z.sub_diag. reflexivity.
        + replace (ptr_add t (m_ptr m + i) 1) with (m_ptr m + (i + 1)).
          2:{ rewrite zlen_cons in *. pose proof (zlen_nonneg l). destruct Hm as (P & L & E). unfold ptr_add, as_usize.
              rewrite Z.mod_small; lia. }
          destruct (IH s1 (upd f i b) (i + 1) I1 C1 ltac:(lia) ltac:(lia)) as (s2 & E2 & I2 & C2).
          exists s2. split; [exact E2|]. split; [exact I2|]. apply (content_ext s2 _ _ C2).
          intros j Hj. unfold over, upd. set (n := zlen (c :: l)) in *.
          destruct (Z.leb_spec (i + 1) j), (Z.ltb_spec j (i + 1 + n)), (Z.leb_spec i j), (Z.ltb_spec j (i + (1 + n))), (Z.eqb_spec j i);
            try lia; cbn [andb]; try reflexivity.
          * replace (Z.to_nat (j - i)) with (Datatypes.S (Z.to_nat (j - (i + 1)))) by lia. reflexivity.
          * subst j. rewrite Z.sub_diag. reflexivity.
    Qed.

    Lemma write_unaligned_spec I v s f : array_like M m I -> I s -> content M s m f ->
      exists s', write_unaligned t B M m ty off v s = (Ret tt, s') /\ I s' /\
        content M s' m (over f off (size_of t ty) (byte_of (big_endian B) (size_of t ty) v)).
    Proof.
      intros A Is C. unfold write_unaligned. rewrite inside_capacity, off_ptr. cbn [after].
      pose proof (size_of_pos t Ht ty).
      assert (Z : zlen (encode t B ty v) = size_of t ty) by (unfold zlen; rewrite encode_length; lia).
      destruct (store_spec I A (encode t B ty v) s f off Is C H0 ltac:(lia)) as (s' & E & I' & C').
      exists s'. split; [exact E|]. split; [exact I'|]. apply (content_ext s' _ _ C').
      intros i Hi. rewrite Z. unfold over.
      destruct (Z.leb_spec off i), (Z.ltb_spec i (off + size_of t ty)); cbn [andb]; try reflexivity.
      apply encode_nth. lia.
    Qed.

    Lemma view_over f n v : n = size_of t ty -> view (over f off n (byte_of (big_endian B) n v)) off n = encode t B ty v.
    Proof.
      intros ->. pose proof (size_of_pos t Ht ty).
      assert (L : length (view (over f off (size_of t ty) (byte_of (big_endian B) (size_of t ty) v)) off (size_of t ty)) = Z.to_nat (size_of t ty)).
      { unfold view. rewrite map_length, seq_length. reflexivity. }
      apply (nth_ext _ _ 0 0); [etransitivity; [exact L|symmetry; apply encode_length]|].
      intros n Hn. assert (Hn' : (n < Z.to_nat (size_of t ty))%nat) by (rewrite <- L; exact Hn). clear Hn. rewrite <- (Nat2Z.id n). rewrite view_nth by lia. rewrite encode_nth by lia.
      unfold over. destruct (Z.leb_spec off (off + Z.of_nat n)), (Z.ltb_spec (off + Z.of_nat n) (off + size_of t ty)); try lia.
      cbn [andb]. f_equal. lia.
    Qed.
  End In.
End Accesses.

(** ** A slice is array-like *)
Lemma slice_content p n s : content (slice_mem p n) s {| m_ptr := p; m_len := n |} (fun i => s (p + i)).
Proof.
  intros i Hi. cbn in *. destruct (Z.leb_spec p (p + i)), (Z.ltb_spec (p + i) (p + n)); try lia. reflexivity.
Qed.
Lemma slice_array p n : array_like (slice_mem p n) {| m_ptr := p; m_len := n |} (fun _ => True).
Proof.
  intros s f i b _ C Hi. cbn in Hi. exists (upd s (p + i) b). split; [|split; [exact Logic.I|]].
  - cbn. destruct (Z.leb_spec p (p + i)), (Z.ltb_spec (p + i) (p + n)); try lia. reflexivity.
  - intros j Hj. specialize (C j Hj). cbn in *.
    destruct (Z.leb_spec p (p + j)), (Z.ltb_spec (p + j) (p + n)); try lia. cbn [andb] in *. unfold upd.
    injection C as C. destruct (Z.eqb_spec (p + j) (p + i)), (Z.eqb_spec j i); try lia; [reflexivity|congruence].
Qed.

(** Bytes outside the slice are never touched. *)
Lemma slice_array_frame p n s0 :
  array_like (slice_mem p n) {| m_ptr := p; m_len := n |} (fun s => forall a, ~ (p <= a < p + n) -> s a = s0 a).
Proof.
  intros s f i b Is C Hi. destruct (slice_array p n s f i b Logic.I C Hi) as (s' & E & _ & C').
  exists s'. split; [exact E|]. split; [|exact C']. intros a Ha. cbn in E, Hi.
  destruct (Z.leb_spec p (p + i)), (Z.ltb_spec (p + i) (p + n)); try lia. cbn in E. injection E as <-. unfold upd.
  destruct (Z.eqb_spec a (p + i)); [lia|]. apply Is, Ha.
Qed.

Section SliceClaims.
  Variable t : target.
  Hypothesis Ht : good_target t.
  Variable B : abi.

  (** What an access does on a slice, completely (no wrapped bounds check). *)
  Lemma slice_access p n ty off x s : span_ok t {| m_ptr := p; m_len := n |} -> is_usize t off -> is_usize t n ->
    (off + size_of t ty < 2 ^ t_bits t \/ t_checks t = true) ->
    exists s', perform t B (slice_mem p n) {| m_ptr := p; m_len := n |} ty off x s =
      (if (off + size_of t ty <=? n) && (negb (is_volatile x) || ((p + off) mod align_of B ty =? 0)) then Ret tt else Panic, s').
  Proof.
    intros Sp O N Fit. set (m := {| m_ptr := p; m_len := n |}) in *.
    destruct (Z.leb_spec (off + size_of t ty) n) as [Le|Gt]; cbn [andb].
    2:{ exists s. apply (outside t Ht); try assumption. }
    pose proof (slice_content p n s) as C.
    assert (O0 : 0 <= off) by apply O.
    assert (R : exists v, read_unaligned t B (slice_mem p n) m ty off s = (Ret v, s)).
    { eexists. apply (read_unaligned_spec t Ht B (slice_mem p n) m Sp ty off O0 Le s _ C). }
    assert (W : forall v, exists s', write_unaligned t B (slice_mem p n) m ty off v s = (Ret tt, s')).
    { intros v. destruct (write_unaligned_spec t Ht B (slice_mem p n) m Sp ty off O0 Le (fun _ => True) v s _ (slice_array p n) Logic.I C) as (s' & E & _).
      eauto. }
    destruct R as (v0 & R). destruct x as [| |v|v]; cbn [perform is_volatile negb orb].
    - rewrite (read_volatile_spec t Ht B _ m Sp ty off O0 Le s _ C). change (m_ptr m) with p.
      destruct (_ =? 0); [rewrite R|]; cbn; eauto.
    - rewrite R. cbn. eauto.
    - rewrite (write_volatile_spec t Ht B _ m Sp ty off O0 Le). change (m_ptr m) with p. destruct (_ =? 0); [apply W|eauto].
    - apply W.
  Qed.

  (** The hole: a wrapped bounds check lets the access through. *)
  Lemma slice_hole p n ty off v s : span_ok t {| m_ptr := p; m_len := n |} -> is_usize t off -> n < 2 ^ (t_bits t - 1) ->
    t_checks t = false -> 2 ^ t_bits t <= off + size_of t ty <= 2 ^ t_bits t + n ->
    read_unaligned t B (slice_mem p n) {| m_ptr := p; m_len := n |} ty off s = (Fault, s) /\
    write_unaligned t B (slice_mem p n) {| m_ptr := p; m_len := n |} ty off v s = (Fault, s).
  Proof.
    intros (P & L & E) O N Ck H. cbn in P, L, E.
    assert (C : assert_capacity t ty off n = Ret tt).
    { rewrite capacity_spec by assumption. rewrite Ck. destruct (Z.ltb_spec (off + size_of t ty) (2 ^ t_bits t)); [lia|].
      destruct (Z.ltb_spec n (off + size_of t ty - 2 ^ t_bits t)); [lia|reflexivity]. }
    pose proof (size_of_pos t Ht ty) as Sz. destruct O as [O1 O2].
    assert (W : 2 ^ t_bits t = 2 * 2 ^ (t_bits t - 1) /\ 16 < 2 ^ (t_bits t - 1)).
    { destruct Ht as ([->| ->] & _); split; reflexivity. }
    set (a := ptr_add t p off).
    assert (A : ((p <=? a) && (a <? p + n)) = false).
    { unfold a, ptr_add, as_usize. destruct (Z.ltb_spec (p + off) (2 ^ t_bits t)).
      - rewrite Z.mod_small by lia. destruct (Z.leb_spec p (p + off)), (Z.ltb_spec (p + off) (p + n)); try reflexivity. lia.
      - rewrite <- (Z.mod_add _ (-1)) by lia. rewrite Z.mod_small by lia.
        destruct (Z.leb_spec p (p + off + -1 * 2 ^ t_bits t)), (Z.ltb_spec (p + off + -1 * 2 ^ t_bits t) (p + n)); try reflexivity. lia. }
    destruct (Z.to_nat (size_of t ty)) as [|k] eqn:Ek; [lia|].
    split.
    - unfold read_unaligned. cbn [m_len m_ptr]. rewrite C, Ek. cbn [obind load_bytes]. fold a. cbn [slice_mem mem_load]. rewrite A. reflexivity.
    - unfold write_unaligned. cbn [m_len m_ptr]. rewrite C. cbn [after]. fold a.
      pose proof (encode_length t B ty v) as El. rewrite Ek in El. destruct (encode t B ty v) as [|b l]; [discriminate El|].
      cbn [store_bytes slice_mem mem_store]. rewrite A. reflexivity.
  Qed.

  (** A write to a slice, exactly. *)
  Lemma slice_write p n ty off v s : span_ok t {| m_ptr := p; m_len := n |} -> 0 <= off -> off + size_of t ty <= n ->
    exists s', write_unaligned t B (slice_mem p n) {| m_ptr := p; m_len := n |} ty off v s = (Ret tt, s') /\
      (forall a, s' a = if (p + off <=? a) && (a <? p + off + size_of t ty)
                        then byte_of (big_endian B) (size_of t ty) v (a - (p + off)) else s a) /\
      (value_ok (is_signed ty) (size_of t ty) v ->
       read_unaligned t B (slice_mem p n) {| m_ptr := p; m_len := n |} ty off s' = (Ret v, s')).
  Proof.
    intros Sp O Le. set (m := {| m_ptr := p; m_len := n |}) in *. pose proof (size_of_pos t Ht ty).
    destruct (write_unaligned_spec t Ht B (slice_mem p n) m Sp ty off O Le _ v s _ (slice_array_frame p n s) (fun _ _ => eq_refl) (slice_content p n s))
      as (s' & E & I & C).
    exists s'. split; [exact E|]. split.
    - intros a. destruct (Z.leb_spec p a) as [A1|A1], (Z.ltb_spec a (p + n)) as [A2|A2].
      2-4: rewrite I by lia; destruct (Z.leb_spec (p + off) a), (Z.ltb_spec a (p + off + size_of t ty)); try lia; reflexivity.
      specialize (C (a - p) ltac:(cbn; lia)). cbn [m m_ptr slice_mem mem_load] in C. replace (p + (a - p)) with a in C by lia.
      destruct (Z.leb_spec p a), (Z.ltb_spec a (p + n)); try lia. cbn [andb] in C. injection C as ->. unfold over.
      destruct (Z.leb_spec (p + off) a), (Z.ltb_spec a (p + off + size_of t ty)), (Z.leb_spec off (a - p)), (Z.ltb_spec (a - p) (off + size_of t ty));
        try lia; cbn [andb]; try (f_equal; lia).
    - intros V. rewrite (read_unaligned_spec t Ht B _ m Sp ty off O Le s' _ C).
      rewrite (view_over t Ht B ty off _ _ v eq_refl). rewrite (decode_encode t Ht B ty v V). reflexivity.
  Qed.

  (** A read, exactly. *)
  Lemma read_value {S} (M : memory S) m ty off s f : span_ok t m -> 0 <= off -> off + size_of t ty <= m_len m -> content M s m f ->
    (forall i, 0 <= i < m_len m -> 0 <= f i < 256) ->
    exists v, read_unaligned t B M m ty off s = (Ret v, s) /\ value_ok (is_signed ty) (size_of t ty) v /\
      forall k, 0 <= k < size_of t ty -> byte_of (big_endian B) (size_of t ty) v k = f (off + k).
  Proof.
    intros Sp O Le C F. pose proof (size_of_pos t Ht ty).
    eexists. split; [apply (read_unaligned_spec t Ht B M m Sp ty off O Le s f C)|].
    assert (L : length (view f off (size_of t ty)) = Z.to_nat (size_of t ty)) by (unfold view; rewrite map_length, seq_length; reflexivity).
    destruct (decode_spec t Ht B ty (view f off (size_of t ty))) as [D1 D2].
    - exact L.
    - apply Forall_forall. intros b Hb. unfold view in Hb. apply in_map_iff in Hb as (k & <- & Hk). apply in_seq in Hk. apply F. lia.
    - split; [exact D1|]. intros k Hk. rewrite <- (encode_nth t B ty _ k Hk), D2. rewrite view_nth by lia. reflexivity.
  Qed.
End SliceClaims.
