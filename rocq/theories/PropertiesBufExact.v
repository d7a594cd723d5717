(** Property theorems C84 (buffered readers and writers over any amount of
    data: the exact set of targets and capacities for which the stream
    survives), and C51, C59 for every ring and every inner writer. *)
From Coq Require Import Lia Permutation.
From Verif Require Import Base ErrorModel RingSpec RingModel BufSpec BufModel RingExactSpec
  BufWriterProofs BufWeak BufClaims BufExactSpec BufExact PropertiesRing PropertiesBuf PropertiesExact.

(** Page-sized rings on 32-bit targets, for the examples. *)
Definition b32 (c : bool) := {| t_bits := 32; t_checks := c; t_page := 4096; t_alloc := 4096 |}.
Lemma b32_good c : good_target (b32 c).
Proof. unfold good_target, b32; cbn. repeat split; try lia; exists 12; split; (lia || reflexivity). Qed.
Lemma three_pages : ~ exact_positions (b32 true) 12288.
Proof.
  intros [[k H]|[H _]]; [|discriminate H]. change (2 ^ t_bits (b32 true)) with 4294967296 in H. lia.
Qed.

(** ** C84: the reader.  With overflow checks the fill that takes the position
    to 2^64 panics after the bytes left the source, so they are lost. *)
Theorem C84_reader_iff : forall t cap,
  good_target t -> 0 < cap -> 2 * cap < 2 ^ t_bits t ->
  ((cap | 2 ^ t_bits t) /\ t_checks t = false) <->
  (forall src script os b delivered rs, br_history t cap src script os b delivered rs ->
     keeps_stream t src b delivered).
Proof. intros t cap Hg Hc Hw. exact (stream_iff t Hg cap Hc Hw). Qed.
Example C84_reader_case :
  good_target (b32 false) /\ (4096 | 2 ^ t_bits (b32 false)) /\
  (exists b rs, br_history (r64 false) 4 [1;2;3;4;5;6;7;8;9;10;11;12] ex_script ex_calls b [1;2;3;4;5;6;7;8;9;10;11] rs) /\
  (exists src script os b d rs, br_history (b32 true) 12288 src script os b d rs /\ ~ keeps_stream (b32 true) src b d) /\
  (exists src script os b d rs, br_history (r64 true) 4096 src script os b d rs /\ ~ keeps_stream (r64 true) src b d).
Proof.
  split; [apply b32_good|]. split; [exists (2 ^ 20); reflexivity|]. split; [|split].
  - destruct (br_run (r64 false) (br_new (fresh_source [1;2;3;4;5;6;7;8;9;10;11;12] ex_script) 4 zeros) ex_calls) as [[b d] rs] eqn:E.
    exists b, rs. split; [repeat constructor|]. split; [repeat constructor; cbn; unfold is_usize; cbn; lia|].
    exists zeros. rewrite E. f_equal. f_equal. apply (f_equal (fun x => snd (fst x))) in E. cbn [fst snd] in E. rewrite <- E.
    vm_compute. reflexivity.
  - apply (reader_slips (b32 true) (b32_good true) 12288); [lia|reflexivity|apply three_pages].
  - apply (reader_overflows (r64 true) (r64_good true) 4096); [lia|reflexivity|left; exists (2 ^ 52); reflexivity|reflexivity].
Qed.
Print Assumptions C84_reader_iff.

(** ** C84: the writer.  [exact_positions]: the capacity divides 2^w, or the
    target is 64-bit and checks (then the position stops short of 2^64). *)
Theorem C84_conservation_iff : forall t cap,
  good_target t -> 0 < cap -> 2 * cap < 2 ^ t_bits t ->
  exact_positions t cap <->
  (forall r0 script os b told rs, bw_history t cap r0 script os b told rs -> conserves t r0 b told).
Proof. intros t cap Hg Hc Hw. exact (conserve_iff t Hg cap Hc Hw). Qed.
Print Assumptions C84_conservation_iff.

Theorem C84_order_iff : forall t cap,
  good_target t -> 0 < cap -> 2 * cap < 2 ^ t_bits t ->
  exact_positions t cap <->
  (forall r0 script os b told rs, bw_history t cap r0 script os b told rs ->
     never_fits t (bw_from_parts (fresh_sink script) r0) os -> keeps_order t r0 b told).
Proof. intros t cap Hg Hc Hw. exact (order_iff t Hg cap Hc Hw). Qed.
Print Assumptions C84_order_iff.

Theorem C84_flush_iff : forall t cap,
  good_target t -> 0 < cap -> 2 * cap < 2 ^ t_bits t ->
  exact_positions t cap <->
  (forall r0 script os b told rs, bw_history t cap r0 script os b told rs -> flushes t b).
Proof. intros t cap Hg Hc Hw. exact (flush_iff t Hg cap Hc Hw). Qed.
Print Assumptions C84_flush_iff.

Theorem C84_into_inner_iff : forall t cap,
  good_target t -> 0 < cap -> 2 * cap < 2 ^ t_bits t ->
  exact_positions t cap <->
  (forall r0 script os b told rs, bw_history t cap r0 script os b told rs -> hands_over t b).
Proof. intros t cap Hg Hc Hw. exact (into_inner_iff t Hg cap Hc Hw). Qed.
Print Assumptions C84_into_inner_iff.

Theorem C84_drop_iff : forall t cap,
  good_target t -> 0 < cap -> 2 * cap < 2 ^ t_bits t ->
  exact_positions t cap <->
  (forall r0 script os b told rs, bw_history t cap r0 script os b told rs -> ~ In Blocked rs -> drops_well t b).
Proof. intros t cap Hg Hc Hw. exact (drop_iff t Hg cap Hc Hw). Qed.
(** A writer over the ring of [C80_ring_case], whose position has wrapped once. *)
Example C84_writer_case :
  exact_positions (r64 false) (2 ^ 62) /\ exact_positions (r64 true) 12288 /\ ~ exact_positions (b32 true) 12288 /\
  (let sc := [Take 2; WFail (IoSimple Interrupted); Take 5; Take 0] in
   exists b rs, bw_history (r64 false) (2 ^ 62) x_ex sc [WFlush] b [] rs /\ accepted (bw_sink b) = [1;2;3] /\
     bw_buffer (r64 false) b = Ret []) /\
  (exists k script os b rs, bw_history (b32 true) 12288 (ring_make 12288 (fun _ => 0)) script os b (repeat 0 k ++ [0; 2]) rs /\
     accepted (bw_sink b) = repeat 0 k ++ [0; 0] /\ bw_buffer (b32 true) b = Ret []).
Proof.
  split; [apply x_exact|]. split; [right; split; reflexivity|]. split; [apply three_pages|]. split.
  - cbv zeta. do 2 eexists. split; [split; [|split; [repeat constructor|vm_compute; reflexivity]]|].
    + exists zeros, x_os. eexists. split; [apply x_ok|]. vm_compute. reflexivity.
    + split; vm_compute; reflexivity.
  - destruct (wrong_bytes (b32 true) (b32_good true) 12288 ltac:(lia) ltac:(reflexivity) three_pages)
      as (k & script & os & b & rs & H & _ & A & B). exists k, script, os, b, rs. auto.
Qed.
Print Assumptions C84_drop_iff.

(** ** C51 without restriction: every ring history, every inner writer. *)
Theorem C51_into_parts : forall t cap r0 script os b told rs,
  good_target t -> 0 < cap -> 2 * cap < 2 ^ t_bits t ->
  bw_every t cap r0 script os b told rs -> ~ In Blocked rs ->
  exists data, bw_buffer t b = Ret data /\
    let '(s, (r, panicked)) := bw_into_parts b in
    s = bw_sink b /\ ring_read_slice t r (umax t) = Ret data /\
    panicked = last_write_panicked (bw_sink b) /\
    (last_write_panicked (bw_sink b) = true -> bw_drop t b = (bw_sink b, Ret tt)).
Proof. intros t cap r0 script os b told rs Hg. exact (parts_any t Hg cap r0 script os b told rs). Qed.
(** The flag is set by a panicking write, kept by calls that do not write, and
    cleared by the next write. *)
Example C51_case :
  let run os := bw_run (r64 true) (bw_from_parts (fresh_sink [WBoom; Take 9; WBoom; Take 9; Take 9]) ex_ring) os in
  (let '(b, _, rs) := run [WFlush; WWrite [3]] in
   rs = [Panic; Ret tt] /\ bw_panicked b = true /\ bw_drop (r64 true) b = (bw_sink b, Ret tt)) /\
  (let '(b, _, rs) := run [WFlush; WWrite [3]; WFlush] in rs = [Panic; Ret tt; Panic] /\ bw_panicked b = false /\
    last_write_panicked (bw_sink b) = false /\ accepted (bw_sink b) = [1;2;3]).
Proof. cbv zeta. split; vm_compute; auto. Qed.
(** A writer that claims more than it was offered, then panics. *)
Example C51_any_case :
  let sc := [Claim 9; WBoom; Take 9] in
  let '(b, told, rs) := bw_run (r64 true) (bw_from_parts (fresh_sink sc) ex_ring) [WFlush; WWrite [3;4;5;6;7;8]; WWrite [3]] in
  bw_every (r64 true) 5 ex_ring sc [WFlush; WWrite [3;4;5;6;7;8]; WWrite [3]] b told rs /\ ~ In Blocked rs /\
  bw_panicked b = false /\ last_write_panicked (bw_sink b) = false.
Proof.
  cbv zeta.
  destruct (bw_run (r64 true) (bw_from_parts (fresh_sink [Claim 9; WBoom; Take 9]) ex_ring) [WFlush; WWrite [3;4;5;6;7;8]; WWrite [3]]) as [[b told] rs] eqn:E.
  split.
  - split; [|split; [|exact E]].
    + exists zeros, [RWrite [1;2]], [OCount 2]. split; [repeat constructor|]. vm_compute. reflexivity.
    + repeat constructor; cbn; unfold is_usize; cbn; lia.
  - vm_compute in E. injection E as <- <- <-. split; [intros H; repeat (destruct H as [H|H]; [discriminate H|]); exact H|].
    split; reflexivity.
Qed.
Print Assumptions C51_into_parts.

(** ** C59 for writers made from any ring. *)
Theorem C59_writer_parts_safe : forall t cap r0 script os b told rs,
  good_target t -> 0 < cap -> 2 * cap < 2 ^ t_bits t ->
  bw_every t cap r0 script os b told rs ->
  Forall (fun r => r <> Fault) rs /\
  (exists data wl, bw_buffer t b = Ret data /\ ring_write_len t (bw_ring b) = Ret wl /\ 0 <= wl /\ zlen data + wl = cap) /\
  snd (bw_drop t b) <> Fault.
Proof. intros t cap r0 script os b told rs Hg. exact (safe_any t Hg cap r0 script os b told rs). Qed.
Example C59_parts_case :
  let '(b, told, rs) := bw_run (r64 true) (bw_from_parts (fresh_sink [Claim 9; Claim 0; Take 1]) ex_ring) [WWrite [3;4;5;6]; WWriteAll [3;4]; WFlush] in
  bw_every (r64 true) 5 ex_ring [Claim 9; Claim 0; Take 1] [WWrite [3;4;5;6]; WWriteAll [3;4]; WFlush] b told rs /\
  bw_buffer (r64 true) b <> Ret [].
Proof.
  destruct (bw_run (r64 true) (bw_from_parts (fresh_sink [Claim 9; Claim 0; Take 1]) ex_ring) [WWrite [3;4;5;6]; WWriteAll [3;4]; WFlush]) as [[b told] rs] eqn:E.
  split.
  - split; [|split; [|exact E]].
    + exists zeros, [RWrite [1;2]], [OCount 2]. split; [repeat constructor|]. vm_compute. reflexivity.
    + repeat constructor; cbn; unfold is_usize; cbn; lia.
  - vm_compute in E. injection E as <- <- <-. vm_compute. discriminate.
Qed.
Print Assumptions C59_writer_parts_safe.
