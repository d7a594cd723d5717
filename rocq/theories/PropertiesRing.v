(** Property theorems C34-C43: Ring and InfiniteRing. *)
From Coq Require Import Lia.
From Verif Require Import Base ErrorModel RingSpec RingModel SeqProofs SizeProofs RingProofs IRingProofs
  RingTheorems RingWeak RingClaims RingWitness.

Definition r64 (c : bool) := {| t_bits := 64; t_checks := c; t_page := 4096; t_alloc := 4096 |}.
Lemma r64_good c : good_target (r64 c).
Proof. unfold good_target, r64; cbn. repeat split; try lia; exists 12; split; (lia || reflexivity). Qed.
Definition zeros : Z -> byte := fun _ => 0.

(** ** C34.  The full statement (every history, 32- and 64-bit) is false on
    32-bit targets for capacities that do not divide 2^32
    ([C34_ring_32bit_refuted]); these theorems cover every history in which
    the stream position fits the word, or any position when the capacity is a
    power of two. *)
Theorem C34_ring_queue_partial : forall t cap m os,
  good_target t -> 0 < cap -> 2 * cap < 2 ^ t_bits t -> history_ok t 0 cap os ->
  exists res, q_run {| q_data := []; q_free := view m 0 cap |} os res /\
    match res with
    | Some (q, xs) => exists r, ring_run t (ring_make cap m) os = Ret (r, xs) /\ ring_shows t cap r q
    | None => ring_run t (ring_make cap m) os = Panic
    end.
Proof. intros t cap m os Hg. exact (ring_queue t Hg cap m os). Qed.
Print Assumptions C34_ring_queue_partial.

(** 64-bit targets, any capacity: every history of fewer than 2^64 bytes. *)
Theorem C34_ring_64bit : forall t cap m os,
  good_target t -> t_bits t = 64 -> 0 < cap -> 2 * cap < 2 ^ 64 ->
  Forall (rop_ok t) os -> rops_weight cap os < 2 ^ 64 -> ring_refines t cap m os.
Proof. exact refines_64. Qed.
Example C34_64bit_case :
  let os := [RWriteAll [1;2;3;4]; RRead 3; RWrite [5;6;7]; RUntil 6; RPeek 9; RWriteAll [8;9;10;11]] in
  good_target (r64 true) /\ Forall (rop_ok (r64 true)) os /\ rops_weight 5 os < 2 ^ 64 /\
  exists r, ring_run (r64 true) (ring_make 5 zeros) os =
    Ret (r, [OUnit; OBytes [1;2;3]; OCount 3; OBytes [4;5;6]; OBytes [7]; OUnit]).
Proof.
  cbv zeta. split; [apply r64_good|]. split; [|split].
  - repeat constructor; cbn; unfold is_usize; cbn; lia.
  - vm_compute. reflexivity.
  - eexists. vm_compute. reflexivity.
Qed.
Print Assumptions C34_ring_64bit.

(** Power-of-two capacities (every Ring of 1, 2, 4, ... pages): any history at
    all without overflow checks, 2^64 bytes with them. *)
Theorem C34_ring_pow2 : forall t cap m os,
  good_target t -> pow2 cap -> 2 * cap < 2 ^ t_bits t ->
  Forall (rop_ok t) os -> rops_weight cap os < 2 ^ 64 \/ t_checks t = false ->
  ring_refines t cap m os.
Proof. exact refines_pow2. Qed.
Example C34_pow2_case : pow2 4 /\
  exists r, ring_run (r64 false) (ring_make 4 zeros) [RWriteAll [1;2;3]; RRead 2; RWrite [4;5;6]; RRead 9] =
    Ret (r, [OUnit; OBytes [1;2]; OCount 3; OBytes [3;4;5;6]]).
Proof. split; [exists 2; split; (lia || reflexivity)|]. eexists. vm_compute. reflexivity. Qed.
Print Assumptions C34_ring_pow2.

(** Bytes accepted = bytes returned followed by the bytes still readable. *)
Theorem C34_fifo_partial : forall t cap m os r xs,
  good_target t -> 0 < cap -> 2 * cap < 2 ^ t_bits t -> history_ok t 0 cap os ->
  ring_run t (ring_make cap m) os = Ret (r, xs) -> Forall plain os -> Forall no_error xs ->
  exists rest, ring_read_slice t r (umax t) = Ret rest /\
    flat_map bytes_in (combine os xs) = flat_map bytes_out (combine os xs) ++ rest.
Proof. exact fifo. Qed.
Example C34_fifo_case :
  let os := [RWrite [1;2;3;4;5]; RRead 2; RWrite [6;7;8]; RRead 1] in
  exists r xs, ring_run (r64 true) (ring_make 4 zeros) os = Ret (r, xs) /\
    flat_map bytes_in (combine os xs) = [1;2;3;4;6;7] /\
    flat_map bytes_out (combine os xs) = [1;2;3] /\ history_ok (r64 true) 0 4 os.
Proof.
  cbv zeta. do 2 eexists. split; [vm_compute; reflexivity|]. split; [reflexivity|]. split; [reflexivity|].
  cbn; unfold is_usize, pos_ok; cbn; repeat split; try (left; reflexivity); lia.
Qed.
Print Assumptions C34_fifo_partial.

(** On a 32-bit target, overflow checks on, a 12288-byte ring that has carried
    2^32 - 4096 bytes and is empty: the history [straddle] stores a 9 at index
    4096 of the write slice, feeds 8192 bytes, skips 4096 and reads one byte;
    it gets 0.  No empty queue of that capacity answers so. *)
Theorem C34_ring_32bit_refuted : exists t cap os r os' r' xs,
  good_target t /\ t_bits t = 32 /\ 0 < cap /\ Forall (rop_ok t) os /\
  total_after 0 cap os < 2 ^ 32 /\
  ring_run t (ring_make cap zeros) os = Ret r /\ ring_read_len t (fst r) = Ret 0 /\
  ring_run t (fst r) os' = Ret (r', xs) /\
  forall q0 q, q_data q0 = [] -> zlen (q_free q0) = cap -> ~ q_run q0 os' (Some (q, xs)).
Proof.
  assert (HN : exists N, Z.of_nat N = 349525) by (exists (Z.to_nat 349525); apply Z2Nat.id; lia).
  destruct HN as [N HN]. destruct (witness_32 N HN) as (r' & Hok & Htot & Hrun & Hlen & E).
  exists w32, 12288, (cycles N), (ring_at (12288 * 349525), units N), straddle, r',
    [OUnit; OUnit; OUnit; OBytes [0]].
  split; [unfold good_target, w32; cbn; repeat split; try lia; exists 12; split; (lia || reflexivity)|].
  split; [reflexivity|]. split; [lia|]. split; [exact Hok|]. split; [exact Htot|].
  split; [exact Hrun|]. split; [exact Hlen|]. split; [exact E|].
  intros q0 q Hd Hf H. pose proof (straddle_spec q0 q _ Hd Hf H) as X. discriminate X.
Qed.
Print Assumptions C34_ring_32bit_refuted.

(** ** C35 (and the bounds half of C36): every history, every target. *)
Theorem C35_accounting : forall t cap m os,
  good_target t -> 0 < cap -> 2 * cap < 2 ^ t_bits t -> Forall (rop_ok t) os ->
  match ring_run t (ring_make cap m) os with
  | Ret (r, _) =>
    exists ro wo rl wl,
      ring_write_capacity r = cap /\
      ring_read_offset t r = Ret ro /\ ring_write_offset t r = Ret wo /\
      ring_read_len t r = Ret rl /\ ring_write_len t r = Ret wl /\
      0 <= ro < cap /\ 0 <= wo < cap /\ 0 <= rl /\ 0 <= wl /\ rl + wl = cap /\
      ring_is_empty t r = Ret (rl =? 0) /\ ring_is_full t r = Ret (wl =? 0) /\
      (forall n, is_usize t n -> exists r', ring_consume t r n = Ret r' /\
         ring_read_len t r' = Ret (rl - Z.min n rl)) /\
      (forall n, is_usize t n ->
         (exists r', ring_feed t r n = Ret r' /\ ring_read_len t r' = Ret (rl + Z.min n wl)) \/
         (ring_feed t r n = Panic /\ t_checks t = true /\ 2 ^ 64 <= r_rpos r + rl + Z.min n wl)) /\
      (forall max, is_usize t max -> exists s, ring_read_slice t r max = Ret s /\
         zlen s = Z.min rl max) /\
      (forall max, is_usize t max -> exists s, ring_write_slice t r max = Ret s /\
         zlen s = Z.min wl max)
  | Panic => True
  | _ => False
  end.
Proof. intros t cap m os Hg. exact (accounting t (good_bits t Hg) cap m os). Qed.
Example C35_case :
  let os := [RWriteAll [1;2;3;4]; RConsume 3; RFeed 2; RWriteAll [1;2;3]] in
  Forall (rop_ok (r64 false)) os /\
  exists r xs, ring_run (r64 false) (ring_make 5 zeros) os = Ret (r, xs) /\
    ring_read_len (r64 false) r = Ret 5 /\ ring_write_len (r64 false) r = Ret 0 /\
    ring_is_full (r64 false) r = Ret true /\ xs = [OUnit; OUnit; OUnit; OErr (IoSimple WriteZero)].
Proof.
  cbv zeta. split; [repeat constructor; cbn; unfold is_usize; cbn; lia|].
  do 2 eexists. split; [vm_compute; reflexivity|]. repeat split; reflexivity.
Qed.
Print Assumptions C35_accounting.

(** A ring used in the examples below: capacity 5, wrapped, 3 readable. *)
Definition r_os : list rop := [RWriteAll [1;2;3;4]; RRead 3; RWrite [5;6]].
Definition r_ex : ring := match ring_run (r64 true) (ring_make 5 zeros) r_os with Ret (r, _) => r | _ => ring_make 5 zeros end.
Lemma r_ex_reached : ring_reached (r64 true) 5 r_os r_ex.
Proof.
  split; [lia|]. split; [reflexivity|]. split.
  - cbn; unfold is_usize, pos_ok; cbn; repeat split; try (left; reflexivity); lia.
  - exists zeros. eexists. vm_compute. reflexivity.
Qed.

(** ** C36, the privacy half: storing through the write slice leaves every
    readable byte alone, and puts the bytes exactly where [feed] will release
    them.  An index outside the slice panics. *)
Theorem C36_store_private_partial : forall t cap os r max i d,
  good_target t -> ring_reached t cap os r -> is_usize t max -> is_usize t i ->
  exists data w, ring_read_slice t r (umax t) = Ret data /\ ring_write_slice t r (umax t) = Ret w /\
  match ring_slice_store t r max i d with
  | Ret r' =>
    i + zlen d <= Z.min (zlen w) max /\
    ring_read_slice t r' (umax t) = Ret data /\
    ring_write_slice t r' (umax t) = Ret (ztake i w ++ d ++ zdrop (i + zlen d) w)
  | Panic => Z.min (zlen w) max < i + zlen d
  | _ => False
  end.
Proof. intros t cap os r max i d Hg. exact (store_private t Hg cap os r max i d). Qed.
Example C36_case : ring_read_slice (r64 true) r_ex 9 = Ret [4;5;6] /\
  match ring_slice_store (r64 true) r_ex 2 1 [77] with
  | Ret r => ring_read_slice (r64 true) r 9 = Ret [4;5;6] /\ ring_write_slice (r64 true) r 9 = Ret [2;77]
  | _ => False
  end.
Proof. split; [reflexivity|]. vm_compute. split; reflexivity. Qed.
Print Assumptions C36_store_private_partial.

(** On a 32-bit target the same jump as in [C34_ring_32bit_refuted] lets the
    write slice lie over readable bytes: a store through it changes what is
    readable. *)
Theorem C36_store_32bit_refuted : exists t cap os r xs r' d d',
  good_target t /\ 0 < cap /\ Forall (rop_ok t) os /\
  ring_run t (ring_make cap zeros) os = Ret (r, xs) /\
  ring_slice_store t r 1 0 [7] = Ret r' /\
  ring_read_slice t r 2 = Ret d /\ ring_read_slice t r' 2 = Ret d' /\ d <> d'.
Proof.
  assert (HN : exists N, Z.of_nat N = 349525) by (exists (Z.to_nat 349525); apply Z2Nat.id; lia).
  destruct HN as [N HN]. destruct (witness_32 N HN) as (_ & Hok & _ & Hrun & _ & _).
  destruct overlap_32 as (r & xs & r' & E & Es & R1 & R2).
  exists w32, 12288, (cycles N ++ [RFeed 8192; RConsume 4095]), r, (units N ++ xs), r', [0; 0], [0; 7].
  split; [unfold good_target, w32; cbn; repeat split; try lia; exists 12; split; (lia || reflexivity)|].
  split; [lia|]. split; [|split; [|split; [|split; [|split]]]]; try assumption; try discriminate.
  - apply Forall_app. split; [exact Hok|]. repeat constructor; cbn; lia.
  - rewrite run_app. change zeros with (fun _ : Z => 0). rewrite Hrun. cbn [obind fst].
    rewrite E. reflexivity.
Qed.
Print Assumptions C36_store_32bit_refuted.

(** ** C37 *)
Theorem C37_write_all_partial : forall t cap os r b,
  good_target t -> ring_reached t cap os r -> room t cap os (Z.min (zlen b) cap) ->
  exists data wl r' res data' wl',
    ring_read_slice t r (umax t) = Ret data /\ ring_write_len t r = Ret wl /\
    ring_write_all t r b = Ret (r', res) /\
    ring_read_slice t r' (umax t) = Ret data' /\ ring_write_len t r' = Ret wl' /\
    ((zlen b <= wl /\ res = None /\ data' = data ++ b /\ wl' = wl - zlen b) \/
     (wl < zlen b /\ res = Some (IoSimple WriteZero) /\ data' = data ++ ztake wl b /\ wl' = 0)).
Proof. intros t cap os r b Hg. exact (write_all_claim t Hg cap os r b). Qed.
Example C37_case : room (r64 true) 5 r_os 3 /\
  match ring_write_all (r64 true) r_ex [10;11;12] with
  | Ret (r, res) => res = Some (IoSimple WriteZero) /\ ring_read_slice (r64 true) r 9 = Ret [4;5;6;10;11]
  | _ => False
  end.
Proof. split; [split; left; reflexivity|]. vm_compute. split; reflexivity. Qed.
Print Assumptions C37_write_all_partial.

(** ** C38.  [no_feed]: feed without a prior store shows stale bytes, which of
    course differ between a used ring and a fresh one. *)
Theorem C38_clear_partial : forall t cap os r os2 m2,
  good_target t -> ring_reached t cap os r -> Forall no_feed os2 -> history_ok t 0 cap os2 ->
  ring_read_len t (ring_clear r) = Ret 0 /\ ring_write_len t (ring_clear r) = Ret cap /\
  match ring_run t (ring_clear r) os2, ring_run t (ring_make cap m2) os2 with
  | Ret (_, xs), Ret (_, ys) => xs = ys
  | Panic, Panic => True
  | _, _ => False
  end.
Proof. intros t cap os r os2 m2 Hg. exact (clear_claim t Hg cap os r os2 m2). Qed.
Example C38_case : exists r, ring_run (r64 true) (ring_clear r_ex) [RWriteAll [1;2;3;4;5]; RRead 9] =
  Ret (r, [OUnit; OBytes [1;2;3;4;5]]).
Proof. eexists. vm_compute. reflexivity. Qed.
Print Assumptions C38_clear_partial.

(** ** C39 *)
Theorem C39_read_until_partial : forall t cap os r c,
  good_target t -> ring_reached t cap os r ->
  exists data r' got,
    ring_read_slice t r (umax t) = Ret data /\ ring_read_until t r c = Ret (r', got) /\
    ring_read_slice t r' (umax t) = Ret (zdrop (zlen got) data) /\
    got ++ zdrop (zlen got) data = data /\
    (exists l, (got = l ++ [c] \/ (got = l /\ l = data)) /\ ~ In c l).
Proof. intros t cap os r c Hg. exact (read_until_claim t Hg cap os r c). Qed.
Example C39_case : exists r, ring_read_until (r64 true) r_ex 5 = Ret (r, [4;5]).
Proof. eexists. vm_compute. reflexivity. Qed.
Print Assumptions C39_read_until_partial.

(** ** C40 *)
Theorem C40_bytes_partial : forall t cap os r,
  good_target t -> ring_reached t cap os r ->
  exists rd wr,
    ring_chunk t r = Ret rd /\ ring_remaining t r = Ret (zlen rd) /\
    ring_chunk_mut t r = Ret wr /\ ring_remaining_mut t r = Ret (zlen wr) /\
    (forall n, 0 <= n <= zlen rd -> exists r', ring_advance t r n = Ret r' /\
       ring_chunk t r' = Ret (zdrop n rd)) /\
    (forall d, zlen d <= zlen wr -> room t cap os (zlen d) ->
       exists r' r'', ring_slice_store t r (umax t) 0 d = Ret r' /\
         ring_advance_mut t r' (zlen d) = Ret r'' /\ ring_chunk t r'' = Ret (rd ++ d)) /\
    (forall d, if zlen d <=? zlen wr
       then room t cap os (zlen d) ->
            exists r', ring_put_slice t r d = Ret r' /\ ring_chunk t r' = Ret (rd ++ d) /\
                       ring_remaining_mut t r' = Ret (zlen wr - zlen d)
       else ring_put_slice t r d = Panic).
Proof. intros t cap os r Hg. exact (bytes_claim t Hg cap os r). Qed.
Example C40_case : ring_remaining (r64 true) r_ex = Ret 3 /\ ring_chunk (r64 true) r_ex = Ret [4;5;6] /\
  match ring_put_slice (r64 true) r_ex [8;9] with
  | Ret r => ring_chunk (r64 true) r = Ret [4;5;6;8;9] | _ => False end /\
  ring_put_slice (r64 true) r_ex [8;9;10] = Panic.
Proof. vm_compute. repeat split; reflexivity. Qed.
Print Assumptions C40_bytes_partial.

(** ** C41: the readable bytes after any history are those of the list
    machine [s_run]: append and keep the last [cap], drop from the front. *)
Theorem C41_most_recent_partial : forall t cap m os,
  good_target t -> 0 < cap -> 2 * cap < 2 ^ t_bits t -> ihistory_ok t 0 cap os -> Forall splain os ->
  exists r, iring_run t (iring_make cap m) os = Ret (r, snd (s_run cap [] os)) /\
    iring_read_slice t r (umax t) = Ret (fst (s_run cap [] os)) /\
    iring_read_len t r = zlen (fst (s_run cap [] os)) /\ iring_write_len r = cap.
Proof. intros t cap m os Hg. exact (iring_simple t Hg cap m os). Qed.
Definition i_os : list irop := [IWriteAll [1;2;3;4;5;6;7]; IRead 2; IWrite [8;9]; IConsume 1; IWrite [10]].
Lemma i_os_ok : ihistory_ok (r64 true) 0 5 i_os.
Proof. cbn; unfold is_usize, pos_ok; cbn; repeat split; try (left; reflexivity); lia. Qed.
Example C41_case : ihistory_ok (r64 true) 0 5 i_os /\ Forall splain i_os /\
  s_run 5 [] i_os = ([6;7;8;9;10], [OUnit; OBytes [3;4]; OCount 2; OUnit; OCount 1]).
Proof. split; [apply i_os_ok|]. split; [repeat constructor|reflexivity]. Qed.
Print Assumptions C41_most_recent_partial.

(** With feed and stores through the write slice as well: the lossy queue. *)
Theorem C41_lossy_queue_partial : forall t cap m os,
  good_target t -> 0 < cap -> 2 * cap < 2 ^ t_bits t -> ihistory_ok t 0 cap os ->
  exists res, lq_run {| lq_tape := view m 0 cap; lq_len := 0 |} os res /\
    match res with
    | Some (q, xs) => exists r, iring_run t (iring_make cap m) os = Ret (r, xs) /\ iring_shows t cap r q
    | None => iring_run t (iring_make cap m) os = Panic
    end.
Proof. intros t cap m os Hg. exact (iring_queue t Hg cap m os). Qed.
Example C41_lossy_case : exists r,
  iring_run (r64 true) (iring_make 5 zeros) [IStore 5 0 [1;2;3]; IFeed 3; IPeek 2; IStore 9 2 [9]; IPeek 9] =
  Ret (r, [OUnit; OUnit; OBytes [1;2]; OUnit; OBytes [9;2;3]]).
Proof. eexists. vm_compute. reflexivity. Qed.
Print Assumptions C41_lossy_queue_partial.

(** ** C42 *)
Theorem C42_oversized_partial : forall t cap os r b,
  good_target t -> iring_reached t cap os r -> zlen b < 2 ^ t_bits t ->
  iroom t cap os (Z.min (zlen b) cap) ->
  exists data r1 r2,
    iring_read_slice t r (umax t) = Ret data /\
    iring_write t r b = Ret (r1, Z.min (zlen b) cap) /\
    iring_read_slice t r1 (umax t) = Ret (lastn cap (data ++ ztake cap b)) /\
    iring_write_all t r b = Ret r2 /\
    iring_read_slice t r2 (umax t) = Ret (lastn cap (data ++ b)).
Proof. intros t cap os r b Hg. exact (iwrite_claim t Hg cap os r b). Qed.
Definition i_ex : iring := match iring_run (r64 true) (iring_make 5 zeros) i_os with Ret (r, _) => r | _ => iring_make 5 zeros end.
Lemma i_ex_reached : iring_reached (r64 true) 5 i_os i_ex.
Proof. split; [lia|]. split; [reflexivity|]. split; [apply i_os_ok|]. exists zeros. eexists. vm_compute. reflexivity. Qed.
Example C42_case : iroom (r64 true) 5 i_os 5 /\
  match iring_write (r64 true) i_ex [11;12;13;14;15;16;17], iring_write_all (r64 true) i_ex [11;12;13;14;15;16;17] with
  | Ret (r1, n), Ret r2 => n = 5 /\ iring_read_slice (r64 true) r1 9 = Ret [11;12;13;14;15] /\
                           iring_read_slice (r64 true) r2 9 = Ret [13;14;15;16;17]
  | _, _ => False
  end.
Proof. split; [split; left; reflexivity|]. vm_compute. repeat split; reflexivity. Qed.
Print Assumptions C42_oversized_partial.

(** ** C43: what feed does for every count.  The claim holds exactly when
    readable + n fits 64 bits. *)
Theorem C43_feed_partial : forall t cap os r n rl,
  good_target t -> iring_reached t cap os r -> is_usize t n ->
  iroom t cap os (Z.min n cap) -> iring_read_len t r = rl ->
  (rl + n < 2 ^ 64 ->
     exists r', iring_feed t r n = Ret r' /\ iring_read_len t r' = Z.min (rl + n) cap) /\
  (2 ^ 64 <= rl + n ->
     if t_checks t then iring_feed t r n = Panic
     else exists r', iring_feed t r n = Ret r' /\
            iring_read_len t r' = Z.min (rl + n - 2 ^ 64) cap).
Proof. intros t cap os r n rl Hg. exact (ireached_feed t Hg cap os r n rl). Qed.
Example C43_case : iring_read_len (r64 true) i_ex = 5 /\
  match iring_feed (r64 true) i_ex 1000 with Ret r => iring_read_len (r64 true) r = 5 | _ => False end.
Proof. vm_compute. split; reflexivity. Qed.
Print Assumptions C43_feed_partial.

(** With 5 readable bytes, feed(usize::MAX) panics when overflow is checked,
    and otherwise loses a readable byte. *)
Theorem C43_feed_refuted :
  (exists t cap os r n, good_target t /\ iring_reached t cap os r /\ is_usize t n /\
     iring_feed t r n = Panic) /\
  (exists t cap os r n r', good_target t /\ iring_reached t cap os r /\ is_usize t n /\
     iring_feed t r n = Ret r' /\ iring_read_len t r' < Z.min cap (iring_read_len t r + n)).
Proof.
  split.
  - exists (r64 true), 5, i_os, i_ex, (2 ^ 64 - 1). split; [apply r64_good|].
    split; [apply i_ex_reached|]. split; [split; [lia|reflexivity]|vm_compute; reflexivity].
  - exists (r64 false), 5, i_os, i_ex, (2 ^ 64 - 1),
      {| i_len := 5; i_rlen := 4; i_wpos := 13; i_mem := i_mem i_ex |}. split; [apply r64_good|]. split.
    { split; [lia|]. split; [reflexivity|]. split; [|exists zeros; eexists; vm_compute; reflexivity].
      cbn; unfold is_usize, pos_ok; cbn; repeat split; try (left; reflexivity); lia. }
    split; [split; [lia|reflexivity]|]. split; [|vm_compute; reflexivity].
    vm_compute. reflexivity.
Qed.
Print Assumptions C43_feed_refuted.
