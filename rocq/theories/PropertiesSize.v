(** Property theorems C01-C04. *)
From Coq Require Import Lia.
From Verif Require Import Base Spec SizeModel SizeProofs SizeSpecProofs.

Definition t64 (c : bool) := {| t_bits := 64; t_checks := c; t_page := 4096; t_alloc := 4096 |}.
Definition t32 (c : bool) := {| t_bits := 32; t_checks := c; t_page := 4096; t_alloc := 4096 |}.

(** C01, exact on every input: [c] is the least multiple of [u] at or above
    [len]. *)
Theorem C01_round_exact : forall (E : Type) t u len c,
  0 < t_bits t -> pow2 u -> u < 2 ^ t_bits t -> is_usize t len -> is_ceil u len c ->
  size_round (E:=E) t u len =
    if t_checks t then (if len + u <? 2 ^ t_bits t then Ret c else Panic)
    else Ret (if c <? 2 ^ t_bits t then c else 0).
Proof. intros; apply round_exact; assumption. Qed.
Example C01_case : pow2 4096 /\ is_usize (t64 true) 5000 /\ is_ceil 4096 5000 8192 /\
  size_round (E:=unit) (t64 true) 4096 5000 = Ret 8192.
Proof.
  split; [exists 12; split; [lia|reflexivity]|]. split; [split; [lia|reflexivity]|].
  split; [apply (rup_is_ceil 4096 5000); lia|reflexivity].
Qed.
Print Assumptions C01_round_exact.

(** C02 *)
Theorem C02_truncate_offset : forall (E : Type) t u len a,
  0 < t_bits t -> pow2 u -> u < 2 ^ t_bits t -> is_usize t len -> is_floor u len a ->
  size_truncate (E:=E) t u len = Ret a /\
  size_offset (E:=E) t u len = Ret (len - a) /\ 0 <= len - a < u.
Proof. intros; apply truncate_offset_exact; assumption. Qed.
Example C02_case : is_floor 4096 9000 8192 /\ size_truncate (E:=unit) (t32 true) 4096 9000 = Ret 8192.
Proof. split; [apply (floor_is_floor 4096 9000); lia|reflexivity]. Qed.
Print Assumptions C02_truncate_offset.

(** [Size::default] is the allocation granularity: positions split with it can
    be used to map files on every system. *)
Theorem C02_default : forall (E : Type) t off, good_target t -> is_usize t off ->
  exists a, size_truncate (E:=E) t (size_default t) off = Ret a /\ size_offset (E:=E) t (size_default t) off = Ret (off - a) /\
    (t_alloc t | a) /\ (t_page t | a) /\ a <= off < a + t_alloc t.
Proof.
  intros E t off Ht Hu. assert (HG : pow2 (t_alloc t)) by apply Ht. pose proof (pow2_pos _ HG) as G0.
  assert (HGW : t_alloc t < 2 ^ t_bits t) by (destruct Ht as ([X|X] & _ & _ & _ & H & _); rewrite X; lia).
  assert (HB : 0 < t_bits t) by (destruct Ht as [[X|X] _]; lia).
  destruct (C02_truncate_offset E t (t_alloc t) off (t_alloc t * (off / t_alloc t)) HB HG HGW Hu (floor_is_floor _ off G0)) as (A & B & C).
  exists (t_alloc t * (off / t_alloc t)). split; [exact A|]. split; [exact B|].
  assert (D : (t_alloc t | t_alloc t * (off / t_alloc t))) by apply Z.divide_factor_l.
  split; [exact D|]. split; [|lia]. apply Z.divide_trans with (t_alloc t); [|exact D].
  destruct Ht as (_ & (i & Hi & Ei) & (j & Hj & Ej) & L & _). rewrite Ei, Ej in *.
  exists (2 ^ (j - i)). rewrite <- Z.pow_add_r; [f_equal; lia| |lia].
  destruct (Z_lt_le_dec j i) as [X|X]; [|lia]. pose proof (Z.pow_lt_mono_r 2 j i). lia.
Qed.
Example C02_default_case : size_truncate (E:=unit) {| t_bits := 64; t_checks := true; t_page := 4096; t_alloc := 65536 |}
  (size_default {| t_bits := 64; t_checks := true; t_page := 4096; t_alloc := 65536 |}) 140000 = Ret 131072.
Proof. reflexivity. Qed.
Print Assumptions C02_default.

(** C03: [n] is the least number of units covering [len]; exact on every
    input, including those whose count does not fit u32 (the count is then
    reduced modulo 2^32). *)
Theorem C03_count_exact : forall (E : Type) t u len n,
  0 < t_bits t -> pow2 u -> u < 2 ^ t_bits t -> is_usize t len -> is_ceil u len (n * u) ->
  size_count (E:=E) t u len =
    if t_checks t then (if len + u <? 2 ^ t_bits t then Ret (n mod 2 ^ 32) else Panic)
    else Ret (if n * u <? 2 ^ t_bits t then n mod 2 ^ 32 else 0).
Proof. intros; apply count_exact; assumption. Qed.
Example C03_count_case : is_ceil 4096 5000 (2 * 4096) /\
  size_count (E:=unit) (t64 false) 4096 5000 = Ret 2.
Proof. split; [apply (rup_is_ceil 4096 5000); lia|reflexivity]. Qed.
Print Assumptions C03_count_exact.

Theorem C03_size_exact : forall (E : Type) t u n,
  good_target t -> pow2 u -> u < 2 ^ t_bits t -> 0 <= n < 2 ^ 32 ->
  size_size (E:=E) t u n = Ret ((n * u) mod 2 ^ t_bits t).
Proof. exact size_exact_good. Qed.
Example C03_size_case : good_target (t64 true) /\ size_size (E:=unit) (t64 true) 4096 3 = Ret 12288.
Proof.
  split; [|reflexivity]. unfold good_target, t64; cbn.
  repeat split; try lia; exists 12; split; (lia || reflexivity).
Qed.
Print Assumptions C03_size_exact.

(** C03: size(count(len)) = round(len) whenever the count fits u32. *)
Theorem C03_size_of_count : forall (E : Type) t u len n c r,
  good_target t -> pow2 u -> u < 2 ^ t_bits t -> is_usize t len ->
  is_ceil u len (n * u) -> n < 2 ^ 32 ->
  size_count (E:=E) t u len = Ret c -> size_size (E:=E) t u c = Ret r ->
  size_round (E:=E) t u len = Ret r.
Proof. exact size_of_count. Qed.
Example C03_size_of_count_case : is_ceil 4096 5000 (2 * 4096) /\ 2 < 2 ^ 32 /\
  size_count (E:=unit) (t64 true) 4096 5000 = Ret 2 /\
  size_size (E:=unit) (t64 true) 4096 2 = Ret 8192.
Proof. split; [apply (rup_is_ceil 4096 5000); lia|]. split; [reflexivity|]. split; reflexivity. Qed.
Print Assumptions C03_size_of_count.

(** C03: without the u32 bound the conversion loses units: 2^44 bytes are
    2^32 pages, counted as 0. *)
Theorem C03_count_wide_refuted : exists len n,
  is_usize (t64 true) len /\ is_ceil 4096 len (n * 4096) /\ 0 < len /\
  size_count (E:=unit) (t64 true) 4096 len = Ret 0 /\ n <> 0.
Proof.
  exists (2 ^ 44), (2 ^ 32). split; [split; [lia|reflexivity]|].
  split; [exact (rup_is_ceil 4096 (2 ^ 44) ltac:(lia))|].
  split; [reflexivity|]. split; [reflexivity|discriminate].
Qed.
Print Assumptions C03_count_wide_refuted.

(** C04: with [a] the floor of [ptr] and [e] the ceiling of [ptr + len], the
    range returned is [a, e), i.e. the tightest unit-aligned cover; with
    overflow checks the call panics exactly when the sum does not fit. *)
Theorem C04_bounds_exact : forall (E : Type) t u ptr len a e,
  0 < t_bits t -> pow2 u -> u < 2 ^ t_bits t -> is_usize t ptr -> is_usize t len ->
  is_floor u ptr a -> is_ceil u (ptr + len) e ->
  (t_checks t = true ->
   size_bounds (E:=E) t u ptr len =
     if len + (ptr - a) + u <? 2 ^ t_bits t then Ret (a, e - a) else Panic) /\
  (len + (ptr - a) + u < 2 ^ t_bits t ->
   size_bounds (E:=E) t u ptr len = Ret (a, e - a)).
Proof. intros; apply bounds_exact; assumption. Qed.
Example C04_case : is_floor 4096 9000 8192 /\ is_ceil 4096 (9000 + 5000) 16384 /\
  size_bounds (E:=unit) (t64 true) 4096 9000 5000 = Ret (8192, 8192).
Proof.
  split; [apply (floor_is_floor 4096 9000); lia|].
  split; [apply (rup_is_ceil 4096 14000); lia|reflexivity].
Qed.
Print Assumptions C04_bounds_exact.

(** C04, minimality spelled out on ranges: any aligned range that contains the
    bytes [ptr, ptr+len) (len > 0) contains the returned one. *)
Theorem C04_bounds_minimal : forall (E : Type) t u ptr len s n,
  0 < t_bits t -> pow2 u -> u < 2 ^ t_bits t -> is_usize t ptr -> is_usize t len ->
  len + ptr mod u + u < 2 ^ t_bits t ->
  size_bounds (E:=E) t u ptr len = Ret (s, n) ->
  (u | s) /\ (u | n) /\ s <= ptr /\ ptr + len <= s + n /\
  forall s' n', (u | s') -> (u | n') -> s' <= ptr -> ptr + len <= s' + n' ->
    s' <= s /\ s + n <= s' + n'.
Proof. exact bounds_minimal. Qed.
Example C04_minimal_case : 5000 + 9000 mod 4096 + 4096 < 2 ^ t_bits (t64 true) /\
  size_bounds (E:=unit) (t64 true) 4096 9000 5000 = Ret (8192, 8192).
Proof. split; reflexivity. Qed.
Print Assumptions C04_bounds_minimal.
