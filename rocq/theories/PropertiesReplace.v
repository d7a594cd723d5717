(** Property theorems C108: the inner object of a BufReader or BufWriter
    replaced by another one through [&mut], any number of times, in between
    any calls on the wrapper and on the inner object.

    Suffix [_partial]: the hypothesis [pos_ok] on the number of bytes that go
    through the buffer (PropertiesBuf.v); on 64-bit targets it only says "fewer
    than 2^64 bytes". *)
From Coq Require Import Lia Permutation.
From Verif Require Import Base ErrorModel RingSpec RingModel BufSpec BufModel SeqProofs RingTheorems RingClaims RingExactSpec BufWriterProofs BufClaims
  BufDirectModel BufDirectSpec BufDirectProofs BufReplaceModel BufReplaceSpec BufReplaceProofs PropertiesRing PropertiesBuf.

Theorem C108_reader_partial : forall t cap m s0 phs b xs,
  good_target t -> 0 < cap -> 2 * cap < 2 ^ t_bits t -> pos_ok t cap (all_len phs) -> Forall honest (rs_script s0) ->
  Forall (fun ph => Forall honest (rs_script (fst ph)) /\ Forall (rcall_ok t) (snd ph)) phs ->
  dr_sessions t (br_new s0 cap m) phs = (b, xs) ->
  Forall (fun r => r <> Fault) (ends xs) /\ exists buffered, br_buffer t b = Ret buffered /\ taken_over phs xs buffered.
Proof.
  intros t cap m s0 phs b xs Hg Hc Hw Hp Hh F E.
  assert (Hb : 32 <= t_bits t <= 64) by (destruct Hg as [[->| ->] _]; lia). exact (taken_over_law t Hb cap Hc Hw s0 m phs b xs Hp Hh F E).
Qed.
Print Assumptions C108_reader_partial.

Theorem C108_reader_64bit : forall t cap m s0 phs b xs,
  good_target t -> t_bits t = 64 -> 0 < cap -> 2 * cap < 2 ^ 64 -> all_len phs < 2 ^ 64 -> Forall honest (rs_script s0) ->
  Forall (fun ph => Forall honest (rs_script (fst ph)) /\ Forall (rcall_ok t) (snd ph)) phs ->
  dr_sessions t (br_new s0 cap m) phs = (b, xs) ->
  Forall (fun r => r <> Fault) (ends xs) /\ exists buffered, br_buffer t b = Ret buffered /\ taken_over phs xs buffered.
Proof.
  intros t cap m s0 phs b xs Hg H64 Hc Hw Hl. apply C108_reader_partial; auto.
  - rewrite H64. exact Hw.
  - split; left; [exact Hl|rewrite H64; exact Hl].
Qed.
(** Four bytes of the first source are in the buffer when it is replaced; the
    last of them comes out before those of the second, two of which are read
    directly. *)
Example C108_reader_case :
  let s1 := fresh_source [1;2;3;4;5] [Give 9] in
  let s2 := fresh_source [6;7;8;9] [Give 9; Give 9] in
  let phs := [(s1, [ROp (BRead 3)]); (s2, [RInner 2; ROp (BExact 2)])] in
  good_target (r64 true) /\ all_len phs < 2 ^ 64 /\
  exists b l1 l2, dr_sessions (r64 true) (br_new s1 4 zeros) phs = (b, [([[1;2;3]], [Ret tt], l1); ([[6;7]; [4;8]], [Ret tt; Ret tt], l2)]) /\
    rs_src l1 = [5] /\ rs_src l2 = [] /\ br_buffer (r64 true) b = Ret [9].
Proof.
  cbv zeta. split; [exact (r64_good true)|]. split; [vm_compute; reflexivity|]. do 3 eexists. split; [vm_compute; reflexivity|].
  split; [vm_compute; reflexivity|]. split; vm_compute; reflexivity.
Qed.
Print Assumptions C108_reader_64bit.

Theorem C108_writer_partial : forall t cap m s0 phs b xs,
  good_target t -> 0 < cap -> 2 * cap < 2 ^ t_bits t -> pos_ok t cap (all_weight phs) \/ exact_positions t cap -> Forall whonest (ws_script s0) ->
  Forall (fun ph => Forall whonest (ws_script (fst ph))) phs ->
  let b0 := bw_from_parts s0 (ring_make cap m) in
  dw_sessions t b0 phs = (b, xs) ->
  Forall (fun r => r <> Fault) (ends xs) /\
  exists buffered, bw_buffer t b = Ret buffered /\ given_over phs xs buffered (no_exact_fits t b0 phs).
Proof.
  intros t cap m s0 phs b xs Hg Hc Hw Hp Hh F b0 E.
  assert (Rm : room t cap (all_weight phs)) by (destruct Hp; [left|right]; auto).
  assert (Hb : 32 <= t_bits t <= 64) by (destruct Hg as [[->| ->] _]; lia). exact (given_over_law t Hb cap Hc Hw s0 m phs b xs Rm Hh F E).
Qed.
Print Assumptions C108_writer_partial.

Theorem C108_writer_64bit : forall t cap m s0 phs b xs,
  good_target t -> t_bits t = 64 -> 0 < cap -> 2 * cap < 2 ^ 64 -> all_weight phs < 2 ^ 64 -> Forall whonest (ws_script s0) ->
  Forall (fun ph => Forall whonest (ws_script (fst ph))) phs ->
  let b0 := bw_from_parts s0 (ring_make cap m) in
  dw_sessions t b0 phs = (b, xs) ->
  Forall (fun r => r <> Fault) (ends xs) /\
  exists buffered, bw_buffer t b = Ret buffered /\ given_over phs xs buffered (no_exact_fits t b0 phs).
Proof.
  intros t cap m s0 phs b xs Hg H64 Hc Hw Hl. apply C108_writer_partial; auto.
  - rewrite H64. exact Hw.
  - left. split; left; [exact Hl|rewrite H64; exact Hl].
Qed.
(** Bytes written while the first sink was there go to the second. *)
Example C108_writer_case :
  let s1 := fresh_sink [] in
  let s2 := fresh_sink [Take 9; Take 0] in
  let phs := [(s1, [WOp (WWriteAll [1;2])]); (s2, [WOp (WWrite [3]); WOp WFlush; WOp (WWrite [4])])] in
  let b0 := bw_from_parts s1 (ring_make 4 zeros) in
  all_weight phs < 2 ^ 64 /\ no_exact_fits (r64 true) b0 phs /\
  exists b l1 l2, dw_sessions (r64 true) b0 phs = (b, [([[1;2]], [Ret tt], l1); ([[3]; []; [4]], [Ret tt; Ret tt; Ret tt], l2)]) /\
    accepted l1 = [] /\ accepted l2 = [1;2;3] /\ bw_buffer (r64 true) b = Ret [4].
Proof.
  cbv zeta. split; [vm_compute; reflexivity|]. split.
  - cbn [no_exact_fits no_exact_fit].
    repeat match goal with |- _ /\ _ => split end; try exact I; intros buf [X|X]; try discriminate X; injection X as <-; vm_compute; auto. right; right; discriminate.
  - do 3 eexists. split; [vm_compute; reflexivity|]. split; [vm_compute; reflexivity|]. split; vm_compute; reflexivity.
Qed.
Print Assumptions C108_writer_64bit.
