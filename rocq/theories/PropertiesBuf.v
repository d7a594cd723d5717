(** Property theorems C44-C52, C59, C60: BufReader and BufWriter.

    [br_reached] and [bw_reached] contain the hypothesis [pos_ok] on the number
    of bytes carried: fewer than 2^64 (with overflow checks), and on 32-bit
    targets fewer than 2^32 unless the capacity divides 2^32 (else the ring
    itself misbehaves, [C34_ring_32bit_refuted]).  Theorems that need it carry
    the suffix [_partial]; on 64-bit targets it only says "fewer than 2^64
    bytes" ([C44_stream_64bit], [C47_conservation_64bit]).  [bw_ok] is
    [bw_reached] or, without a bound on the bytes, a ring whose positions are
    exact; PropertiesBufExact.v shows that nothing wider is possible. *)
From Coq Require Import Lia Permutation.
From Verif Require Import Base ErrorModel RingSpec RingModel BufSpec BufModel SeqProofs RingTheorems RingExactSpec RingExactClaims
  BufWriterProofs BufWeak BufClaims BufMark PropertiesRing.

(** Used in the examples only: a run is determined by its parts. *)
Lemma parts3 {A B C} (x : A * B * C) (b : B) (c : C) : snd (fst x) = b -> snd x = c -> x = (fst (fst x), b, c).
Proof. destruct x as [[? ?] ?]. cbn. intros -> ->. reflexivity. Qed.

(** ** C44 *)
Theorem C44_stream_partial : forall t cap src script os b delivered rs,
  good_target t -> br_reached t cap src script os b delivered rs ->
  Forall (fun r => r <> Fault) rs /\
  (forall pre, rs = pre ++ [Blocked] -> rs_script (br_src b) = []) /\
  exists buffered, br_buffer t b = Ret buffered /\
    delivered ++ buffered ++ rs_src (br_src b) = src.
Proof. intros t cap src script os b d rs Hg. exact (stream_claim t Hg cap src script os b d rs). Qed.
Print Assumptions C44_stream_partial.

Theorem C44_stream_64bit : forall t cap m src script os b delivered rs,
  good_target t -> t_bits t = 64 -> 0 < cap -> 2 * cap < 2 ^ 64 -> zlen src < 2 ^ 64 ->
  Forall honest script -> Forall (brop_ok t) os ->
  br_run t (br_new (fresh_source src script) cap m) os = (b, delivered, rs) ->
  Forall (fun r => r <> Fault) rs /\
  exists buffered, br_buffer t b = Ret buffered /\
    delivered ++ buffered ++ rs_src (br_src b) = src.
Proof.
  intros t cap m src script os b d rs Hg H64 Hc Hw Hl Hh Ho E.
  assert (R : br_reached t cap src script os b d rs).
  { split; [exact Hc|]. split; [rewrite H64; exact Hw|].
    split; [split; left; [exact Hl|rewrite H64; exact Hl]|]. split; [exact Hh|]. split; [exact Ho|]. exists m. exact E. }
  destruct (stream_claim t Hg _ _ _ _ _ _ _ R) as (F & _ & X). split; [exact F|exact X].
Qed.
(** A source that interrupts, fails after scribbling and panics in between; the
    low-water mark is moved. *)
Definition ex_script : list ranswer :=
  [Give 3; RFail [77;77] (IoSimple Interrupted); Give 2; RBoom [88]; RFail [66] (IoOs 5); Give 9; Give 4; Give 1; Give 0; Give 0].
Definition ex_calls : list brop :=
  [BRead 2; BLowat 3; BFill; BFill; BConsume 1; BFill; BFill; BRead 3; BUntil 9; BExact 2; BRead 8].
Example C44_case :
  exists b rs, br_run (r64 true) (br_new (fresh_source [1;2;3;4;5;6;7;8;9;10;11;12] ex_script) 4 zeros) ex_calls
      = (b, [1;2;3;4;5;6;7;8;9;10;11], rs) /\
    br_buffer (r64 true) b = Ret [] /\ rs_src (br_src b) = [12] /\
    rs = [Ret tt; Ret tt; Err (IoSimple Interrupted); Ret tt; Ret tt; Panic; Err (IoOs 5); Ret tt; Ret tt; Ret tt; Ret tt] /\
    Forall honest ex_script /\ Forall (brop_ok (r64 true)) ex_calls.
Proof.
  do 2 eexists. split; [vm_compute; reflexivity|]. split; [vm_compute; reflexivity|]. split; [reflexivity|].
  split; [reflexivity|]. split; repeat constructor; cbn; unfold is_usize; cbn; lia.
Qed.
Print Assumptions C44_stream_64bit.

(** ** C45 *)
Theorem C45_low_water : forall t cap src script os b rs b' r,
  good_target t -> br_any t cap src script os b rs -> br_fill_buf t b = (b', r) ->
  exists d, ring_read_len t (br_ring b) = Ret d /\
    (br_lowat b < d -> rs_asked (br_src b') = rs_asked (br_src b) /\
                       rs_script (br_src b') = rs_script (br_src b)) /\
    (d <= br_lowat b -> r <> Blocked -> rs_asked (br_src b') = rs_asked (br_src b) ++ [cap - d]) /\
    (r = Blocked -> d <= br_lowat b /\ rs_script (br_src b) = []).
Proof. intros t cap src script os b rs b' r Hg. exact (lowat_claim t Hg cap src script os b rs b' r). Qed.
Print Assumptions C45_low_water.
(** The mark is what [set_lowat] last set it to, 0 at first.  (The history may
    have ended early, in a call that did not return.) *)
Theorem C45_mark : forall t cap src script os b rs, br_any t cap src script os b rs -> br_get_lowat b = last_mark 0 (firstn (length rs) os).
Proof. intros t cap src script os b rs. exact (mark_claim t cap src script os b rs). Qed.
Example C45_mark_case : exists b,
  br_any (r64 true) 4 [1;2;3] [Give 3] [BLowat 2; BFill; BLowat 1; BRead 1; BConsume 1] b [Ret tt; Ret tt; Ret tt; Ret tt; Ret tt] /\ br_get_lowat b = 1.
Proof.
  eexists. split.
  - split; [lia|]. split; [vm_compute; reflexivity|]. split; [repeat constructor; vm_compute; intuition discriminate|].
    split; [repeat constructor; vm_compute; intuition discriminate|]. exists (fun _ => 0). eexists. vm_compute. reflexivity.
  - reflexivity.
Qed.
Print Assumptions C45_mark.

Theorem C45_bypass : forall t cap src script os b rs n b' s r,
  good_target t -> br_any t cap src script os b rs -> is_usize t n -> br_read t b n = (b', s, r) ->
  exists d, ring_read_len t (br_ring b) = Ret d /\
    (d = 0 /\ cap <= n -> br_ring b' = br_ring b /\ src_read n (br_src b) = (br_src b', s, r)) /\
    (~ (d = 0 /\ cap <= n) -> exists b1 r1, br_fill_buf t b = (b1, r1) /\ br_src b' = br_src b1).
Proof. intros t cap src script os b rs n b' s r Hg. exact (bypass_claim t Hg cap src script os b rs n b' s r). Qed.
(** Destination sizes seen by the source: 4 (empty, below the mark), nothing
    (3 buffered > mark 2), 2 (2 buffered), 5 (bypass: empty, 5 >= 4). *)
Example C45_case :
  let os := [BLowat 2; BFill; BFill; BConsume 1; BFill; BConsume 4; BRead 5] in
  let src := [1;2;3;4;5;6;7;8;9] in
  exists b, br_any (r64 true) 4 src [Give 3; Give 2; Give 5] os b
      [Ret tt; Ret tt; Ret tt; Ret tt; Ret tt; Ret tt; Ret tt] /\ rs_asked (br_src b) = [4; 2; 5].
Proof.
  cbv zeta. eexists. split.
  - split; [lia|]. split; [vm_compute; reflexivity|].
    split; [repeat constructor|]. split; [repeat constructor; cbn; unfold is_usize; cbn; lia|].
    exists zeros. eexists. vm_compute. reflexivity.
  - vm_compute. reflexivity.
Qed.
Print Assumptions C45_bypass.

(** ** C46 *)
Theorem C46_end_of_input : forall t cap src script os b rs n b' s,
  good_target t -> br_any t cap src script os b rs -> is_usize t n -> 0 < n ->
  br_read t b n = (b', s, Ret 0) ->
  br_buffer t b = Ret [] /\
  exists x, src_read (if cap <=? n then n else cap) (br_src b) = (br_src b', x, Ret 0).
Proof. intros t cap src script os b rs n b' s Hg. exact (eof_claim t Hg cap src script os b rs n b' s). Qed.
(** With the mark above the buffered length a source at its end does not hide
    buffered bytes: the first read gets them, the second gets 0. *)
Definition ex46 := br_run (r64 true) (br_new (fresh_source [1;2] [Give 2; Give 0; Give 0]) 4 zeros) [BLowat 3; BFill].
Example C46_case :
  br_any (r64 true) 4 [1;2] [Give 2; Give 0; Give 0] [BLowat 3; BFill] (fst (fst ex46)) [Ret tt; Ret tt] /\
  let '(b1, s1, r1) := br_read (r64 true) (fst (fst ex46)) 3 in
  let '(b2, s2, r2) := br_read (r64 true) b1 3 in
  s1 = [1;2] /\ r1 = Ret 2 /\ s2 = [] /\ r2 = Ret 0.
Proof.
  split.
  - split; [lia|]. split; [vm_compute; reflexivity|]. split; [repeat constructor|].
    split; [repeat constructor; cbn; unfold is_usize; cbn; lia|].
    exists zeros, []. apply (parts3 ex46); vm_compute; reflexivity.
  - vm_compute. auto.
Qed.
Print Assumptions C46_end_of_input.

(** ** C60: read_until and read_exact *)
Theorem C60_read_until_partial : forall t cap src script os b d rs c b' s r,
  good_target t -> br_reached t cap src script os b d rs -> br_read_until t b c = (b', s, r) ->
  exists buffered buffered', br_buffer t b = Ret buffered /\ br_buffer t b' = Ret buffered' /\
    s ++ buffered' ++ rs_src (br_src b') = buffered ++ rs_src (br_src b) /\
    match r with
    | Ret _ => flowed (br_src b) (br_src b') /\
               ((exists l, s = l ++ [c] /\ ~ In c l) \/
                (~ In c s /\ buffered' = [] /\ ran_dry (br_src b) (br_src b')))
    | Err e => ~ In c s /\ broke (br_src b) (br_src b') e
    | Panic => ~ In c s /\ blew (br_src b) (br_src b')
    | Blocked => ~ In c s /\ rs_script (br_src b') = []
    | Fault => False
    end.
Proof. intros t cap src script os b d rs c b' s r Hg. exact (until_claim t Hg cap src script os b d rs c b' s r). Qed.
Print Assumptions C60_read_until_partial.

Theorem C60_read_exact_partial : forall t cap src script os b d rs n b' s r,
  good_target t -> br_reached t cap src script os b d rs -> is_usize t n -> br_read_exact t b n = (b', s, r) ->
  exists buffered buffered', br_buffer t b = Ret buffered /\ br_buffer t b' = Ret buffered' /\
    s ++ buffered' ++ rs_src (br_src b') = buffered ++ rs_src (br_src b) /\
    match r with
    | Ret _ => zlen s = n /\ flowed (br_src b) (br_src b')
    | Err e => zlen s < n /\
               ((e = IoSimple UnexpectedEof /\ ran_dry (br_src b) (br_src b')) \/ broke (br_src b) (br_src b') e)
    | Panic => zlen s < n /\ blew (br_src b) (br_src b')
    | Blocked => zlen s < n /\ rs_script (br_src b') = []
    | Fault => False
    end.
Proof. intros t cap src script os b d rs n b' s r Hg. exact (exact_claim t Hg cap src script os b d rs n b' s r). Qed.
(** A line spread over three fills and an interrupt. *)
Example C60_case :
  let sc := [Give 2; RFail [] (IoSimple Interrupted); Give 2; Give 4; Give 1; Give 0] in
  exists b, br_run (r64 true) (br_new (fresh_source [1;2;3;4;5;9;6;7;8] sc) 4 zeros) [BRead 1] = (b, [1], [Ret tt]) /\
  br_reached (r64 true) 4 [1;2;3;4;5;9;6;7;8] sc [BRead 1] b [1] [Ret tt] /\
  let '(b1, s, r) := br_read_until (r64 true) b 9 in
  s = [2;3;4;5;9] /\ r = Ret tt /\
  let '(_, s2, r2) := br_read_exact (r64 true) b1 4 in s2 = [6;7;8] /\ r2 = Err (IoSimple UnexpectedEof).
Proof.
  cbv zeta. eexists. split; [vm_compute; reflexivity|]. split.
  - split; [lia|]. split; [vm_compute; reflexivity|]. split; [split; left; vm_compute; reflexivity|].
    split; [repeat constructor|]. split; [repeat constructor; cbn; unfold is_usize; cbn; lia|].
    exists zeros. vm_compute. reflexivity.
  - vm_compute. auto.
Qed.
Print Assumptions C60_read_exact_partial.

(** ** C47 *)
Theorem C47_conservation_partial : forall t cap os0 r0 script os b told rs,
  good_target t -> bw_ok t cap os0 r0 script os b told rs ->
  Forall (fun r => r <> Fault) rs /\ (In Blocked rs -> ws_script (bw_sink b) = []) /\
  exists data0 data, ring_read_slice t r0 (umax t) = Ret data0 /\ bw_buffer t b = Ret data /\
    Permutation (data0 ++ told) (accepted (bw_sink b) ++ data).
Proof.
  intros t cap os0 r0 script os b told rs Hg H.
  destruct (conserve_claim t Hg _ _ _ _ _ _ _ _ H) as (F & K & data0 & data & E0 & E & P & _).
  split; [exact F|]. split; [exact K|]. exists data0, data. auto.
Qed.
Print Assumptions C47_conservation_partial.

Theorem C47_conservation_64bit : forall t cap m script os b told rs,
  good_target t -> t_bits t = 64 -> 0 < cap -> 2 * cap < 2 ^ 64 -> bwops_weight os < 2 ^ 64 ->
  Forall whonest script ->
  bw_run t (bw_from_parts (fresh_sink script) (ring_make cap m)) os = (b, told, rs) ->
  exists data, bw_buffer t b = Ret data /\ Permutation told (accepted (bw_sink b) ++ data).
Proof.
  intros t cap m script os b told rs Hg H64 Hc Hw Hl Hh E.
  assert (R0 : ring_reached t cap [] (ring_make cap m)).
  { split; [exact Hc|]. split; [rewrite H64; exact Hw|]. split; [exact I|]. exists m, []. reflexivity. }
  assert (R : bw_reached t cap [] (ring_make cap m) script os b told rs).
  { split; [exact R0|]. cbn [total_after]. split; [split; left; [lia|rewrite H64; lia]|]. auto. }
  destruct (conserve_claim t Hg _ _ _ _ _ _ _ _ (or_introl R)) as (_ & _ & data0 & data & E0 & E1 & P & _).
  assert (D0 : data0 = []).
  { destruct (reached_shows t Hg _ _ _ R0) as (q & S). pose proof S as (_ & _ & L & _ & RS & _).
    rewrite (RS (umax t) (is_usize_umax t (good_bits t Hg))) in E0. injection E0 as <-.
    destruct (ring_queue t Hg cap m [] Hc ltac:(rewrite H64; exact Hw) I) as (res & Q & M).
    inversion Q; subst. destruct M as (r' & X & S'). injection X as <-.
    rewrite (shows_unique t Hg _ _ _ _ S S'). cbn [q_data]. unfold ztake. apply firstn_nil. }
  subst data0. exists data. auto.
Qed.
(** Short writes, an interrupt, an error, a zero-length write and a panic. *)
Definition ex_wscript : list wanswer :=
  [Take 2; WFail (IoSimple Interrupted); Take 1; WFail (IoOs 28); Take 0; WBoom; Take 7; Take 1; Take 9; Take 0].
Definition ex_writes : list bwop :=
  [WWrite [1;2;3]; WWrite [4;5]; WWriteAll [6;7;8]; WWrite [9;10;11]; WFlush; WFlush; WWriteAll [12;13;14;15;16;17]].
Example C47_case :
  exists b told rs, bw_run (r64 true) (bw_from_parts (fresh_sink ex_wscript) (ring_make 4 zeros)) ex_writes = (b, told, rs) /\
    accepted (bw_sink b) = [1;2;3;4;5;12;13;14;15;16;17] /\ bw_buffer (r64 true) b = Ret [] /\
    rs = [Ret tt; Ret tt; Err (IoOs 28); Err (IoSimple WriteZero); Panic; Ret tt; Ret tt] /\
    Forall whonest ex_wscript /\ bwops_weight ex_writes < 2 ^ 64.
Proof.
  do 3 eexists. split; [vm_compute; reflexivity|]. split; [vm_compute; reflexivity|]. split; [vm_compute; reflexivity|].
  split; [vm_compute; reflexivity|]. split; [repeat constructor|vm_compute; reflexivity].
Qed.
Print Assumptions C47_conservation_64bit.

(** ** C48.  Full statement: for every history the told bytes are, in order,
    the accepted ones followed by the buffered ones.  It is false: a write
    that exactly fills the free space of a non-empty buffer goes straight to
    the inner writer (buffer.rs:424-429). *)
Theorem C48_order_refuted : exists t cap m script os b told rs data,
  good_target t /\ 0 < cap /\ 2 * cap < 2 ^ t_bits t /\ Forall whonest script /\ bwops_weight os < 2 ^ 32 /\
  bw_run t (bw_from_parts (fresh_sink script) (ring_make cap m)) os = (b, told, rs) /\
  rs = [Ret tt; Ret tt] /\ bw_buffer t b = Ret data /\ told <> accepted (bw_sink b) ++ data.
Proof.
  exists (r64 true), 4, zeros, [Take 3], [WWriteAll [1]; WWriteAll [2;3;4]].
  do 4 eexists. split; [apply r64_good|]. split; [lia|]. split; [vm_compute; reflexivity|].
  split; [repeat constructor|]. split; [vm_compute; reflexivity|]. split; [vm_compute; reflexivity|].
  split; [vm_compute; reflexivity|]. split; [vm_compute; reflexivity|]. vm_compute. discriminate.
Qed.
Print Assumptions C48_order_refuted.

(** It happens in every such situation: the new bytes overtake the buffered ones. *)
Theorem C48_exact_fit_overtakes : forall t cap os0 r0 script os b told rs data buf k rest,
  good_target t -> bw_ok t cap os0 r0 script os b told rs ->
  bw_buffer t b = Ret data -> data <> [] -> zlen data + zlen buf = cap ->
  ws_script (bw_sink b) = Take k :: rest ->
  exists b', bw_write t b buf = (b', Ret (zlen (ztake k buf))) /\ bw_buffer t b' = Ret data /\
    accepted (bw_sink b') = accepted (bw_sink b) ++ ztake k buf.
Proof.
  intros t cap os0 r0 script os b told rs data buf k rest Hg.
  exact (overtake_claim t Hg cap os0 r0 script os b told rs data buf k rest).
Qed.
Print Assumptions C48_exact_fit_overtakes.

(** And in no other: missing from the full statement are the histories with a
    write that exactly fills a non-empty buffer. *)
Theorem C48_order_partial : forall t cap os0 r0 script os b told rs,
  good_target t -> bw_ok t cap os0 r0 script os b told rs ->
  never_fits t (bw_from_parts (fresh_sink script) r0) os ->
  exists data0 data, ring_read_slice t r0 (umax t) = Ret data0 /\ bw_buffer t b = Ret data /\
    data0 ++ told = accepted (bw_sink b) ++ data.
Proof.
  intros t cap os0 r0 script os b told rs Hg H N.
  destruct (conserve_claim t Hg _ _ _ _ _ _ _ _ H) as (_ & _ & data0 & data & E0 & E & _ & Ord).
  exists data0, data. auto.
Qed.
(** A ring handed over with two bytes in it. *)
Definition ex_ring : ring := match ring_run (r64 true) (ring_make 5 zeros) [RWrite [1;2]] with
                             | Ret (r, _) => r | _ => ring_make 5 zeros end.
Lemma ex_ring_reached : ring_reached (r64 true) 5 [RWrite [1;2]] ex_ring.
Proof.
  split; [lia|]. split; [vm_compute; reflexivity|]. split.
  - cbn. unfold pos_ok. cbn. repeat split; left; lia.
  - exists zeros, [OCount 2]. vm_compute. reflexivity.
Qed.
Example C48_case :
  let os := [WWrite [3;4]; WWrite [5;6;7]; WWriteAll [8;9;10;11;12;13]] in
  let sc := [Take 1; Take 9; Take 9; Take 2; Take 9] in
  exists b rs, bw_reached (r64 true) 5 [RWrite [1;2]] ex_ring sc os b [3;4;5;6;7;8;9;10;11;12;13] rs /\
    never_fits (r64 true) (bw_from_parts (fresh_sink sc) ex_ring) os /\
    accepted (bw_sink b) = [1;2;3;4;5;6;7;8;9] /\ bw_buffer (r64 true) b = Ret [10;11;12;13].
Proof.
  cbv zeta. do 2 eexists. split; [|split; [|split]].
  - split; [exact ex_ring_reached|]. split; [split; left; vm_compute; reflexivity|].
    split; [repeat constructor|]. vm_compute. reflexivity.
  - cbn [never_fits].
    split; [|split; [|split; [|exact I]]]; intros buf [X|X]; try discriminate X; injection X as <-; vm_compute;
      right; right; discriminate.
  - vm_compute. reflexivity.
  - vm_compute. reflexivity.
Qed.
Print Assumptions C48_order_partial.

(** ** C49 *)
Theorem C49_flush_partial : forall t cap os0 r0 script os b told rs b' r,
  good_target t -> bw_ok t cap os0 r0 script os b told rs -> bw_flush t b = (b', r) ->
  exists data data', bw_buffer t b = Ret data /\ bw_buffer t b' = Ret data' /\
    accepted (bw_sink b') ++ data' = accepted (bw_sink b) ++ data /\
    match r with
    | Ret _ => data' = [] /\ exists log, ws_log (bw_sink b') = log ++ [Flushed] /\
                 flat_map event_bytes log = accepted (bw_sink b) ++ data
    | Err e => (exists pre, ws_script (bw_sink b) = pre ++ ws_script (bw_sink b') /\ stopped pre e) /\
               (io_kind_of e = Interrupted -> data' = [])
    | Panic => exists pre, ws_script (bw_sink b) = pre ++ ws_script (bw_sink b') /\ boomed pre
    | Blocked => ws_script (bw_sink b') = []
    | Fault => False
    end.
Proof. intros t cap os0 r0 script os b told rs b' r Hg. exact (flush_claim t Hg cap os0 r0 script os b told rs b' r). Qed.
Example C49_case :
  let sc := [Take 1; WFail (IoSimple Interrupted); Take 9; WFail (IoOs 5); Take 0] in
  let b := bw_from_parts (fresh_sink sc) ex_ring in
  bw_reached (r64 true) 5 [RWrite [1;2]] ex_ring sc [] b [] [] /\
  let '(b1, r1) := bw_flush (r64 true) b in
  accepted (bw_sink b1) = [1;2] /\ r1 = Err (IoOs 5) /\
  let '(b2, r2) := bw_flush (r64 true) b1 in
  ws_log (bw_sink b2) = [Wrote [1]; Wrote [2]; Flushed] /\ r2 = Ret tt.
Proof.
  cbv zeta. split.
  - split; [exact ex_ring_reached|]. split; [split; left; vm_compute; reflexivity|]. split; [repeat constructor|reflexivity].
  - vm_compute. auto.
Qed.
Print Assumptions C49_flush_partial.

(** ** C50 *)
Theorem C50_into_inner_partial : forall t cap os0 r0 script os b told rs,
  good_target t -> bw_ok t cap os0 r0 script os b told rs ->
  exists data, bw_buffer t b = Ret data /\
    match bw_into_inner t b with
    | Inner s => accepted s = accepted (bw_sink b) ++ data
    | Back b' e =>
      exists data' pre, bw_buffer t b' = Ret data' /\ data' <> [] /\
        accepted (bw_sink b') ++ data' = accepted (bw_sink b) ++ data /\
        ws_script (bw_sink b) = pre ++ ws_script (bw_sink b') /\ stopped pre e /\ io_kind_of e <> Interrupted /\
        iie_error (b', e) = e /\ bw_buffer t (iie_into_inner (b', e)) = Ret data'
    | Unwound s r =>
      (exists rest, accepted s ++ rest = accepted (bw_sink b) ++ data) /\
      ((r = Panic /\ exists pre, ws_script (bw_sink b) = pre ++ ws_script s /\ boomed pre) \/ (r = Blocked /\ ws_script s = []))
    end.
Proof. intros t cap os0 r0 script os b told rs Hg. exact (into_inner_claim t Hg cap os0 r0 script os b told rs). Qed.
Example C50_case :
  let b sc := bw_from_parts (fresh_sink sc) ex_ring in
  (exists s, bw_into_inner (r64 true) (b [Take 1; Take 1]) = Inner s /\ accepted s = [1;2]) /\
  (exists b', bw_into_inner (r64 true) (b [Take 1; WFail (IoOs 28)]) = Back b' (IoOs 28) /\
     bw_buffer (r64 true) b' = Ret [2]) /\
  (exists s, bw_into_inner (r64 true) (b [Take 1; WBoom; Take 9]) = Unwound s Panic /\ accepted s = [1]).
Proof.
  cbv zeta. split; [|split]; eexists; (split; [vm_compute; reflexivity|vm_compute; reflexivity]).
Qed.
Print Assumptions C50_into_inner_partial.

(** ** C52 *)
Theorem C52_drop_partial : forall t cap os0 r0 script os b told rs s r,
  good_target t -> bw_ok t cap os0 r0 script os b told rs -> ~ In Blocked rs ->
  last_write_panicked (bw_sink b) = false -> bw_drop t b = (s, r) ->
  exists data p rest pre, bw_buffer t b = Ret data /\ data = p ++ rest /\
    accepted s = accepted (bw_sink b) ++ p /\ ws_script (bw_sink b) = pre ++ ws_script s /\
    match r with
    | Ret _ => rest = [] \/ exists e, stopped pre e /\ io_kind_of e <> Interrupted
    | Err _ => False
    | Panic => boomed pre
    | Blocked => ws_script s = []
    | Fault => False
    end /\
    (Forall willing (ws_script (bw_sink b)) -> (r = Ret tt /\ rest = []) \/ r = Blocked).
Proof. intros t cap os0 r0 script os b told rs s r Hg. exact (drop_claim t Hg cap os0 r0 script os b told rs s r). Qed.
Example C52_case :
  let d sc := bw_drop (r64 true) (bw_from_parts (fresh_sink sc) ex_ring) in
  Forall willing [Take 1; WFail (IoSimple Interrupted); Take 5] /\
  accepted (fst (d [Take 1; WFail (IoSimple Interrupted); Take 5])) = [1;2] /\
  d [Take 1; WFail (IoOs 5); Take 5] = ({| ws_log := [Wrote [1]]; ws_script := [Take 5];
     ws_calls := [([1;2], Take 1); ([2], WFail (IoOs 5))] |}, Ret tt) /\
  snd (d [Take 1; WBoom]) = Panic.
Proof. cbv zeta. split; [repeat constructor|]. split; [vm_compute; reflexivity|]. split; vm_compute; reflexivity. Qed.
Print Assumptions C52_drop_partial.

(** ** C59: inner objects that break their contracts, histories of any length *)
Theorem C59_reader_safe : forall t cap src script os b rs,
  good_target t -> br_any t cap src script os b rs ->
  Forall (fun r => r <> Fault) rs /\
  exists data wl, br_buffer t b = Ret data /\ ring_write_len t (br_ring b) = Ret wl /\
    0 <= wl /\ zlen data + wl = cap.
Proof. intros t cap src script os b rs Hg. exact (reader_safe_claim t Hg cap src script os b rs). Qed.
Print Assumptions C59_reader_safe.

Theorem C59_writer_safe : forall t cap m script os b rs,
  good_target t -> bw_any t cap m script os b rs ->
  Forall (fun r => r <> Fault) rs /\
  (exists data wl, bw_buffer t b = Ret data /\ ring_write_len t (bw_ring b) = Ret wl /\
     0 <= wl /\ zlen data + wl = cap) /\
  snd (bw_drop t b) <> Fault.
Proof. intros t cap m script os b rs Hg. exact (writer_safe_claim t Hg cap m script os b rs). Qed.
(** A reader claiming 2^63 bytes, a writer claiming to have written more than
    it was given. *)
Example C59_case :
  (exists b, br_any (r64 true) 4 [] [Lie [1] (2 ^ 63); Lie [] 2] [BFill; BConsume 3; BExact 9] b [Ret tt; Ret tt; Blocked]) /\
  (exists b, bw_any (r64 true) 4 zeros [Claim (2 ^ 63); Claim 8] [WWrite [1]; WFlush; WWriteAll [1;2;3;4;5]] b
     [Ret tt; Ret tt; Blocked]).
Proof.
  split; eexists.
  - split; [lia|]. split; [vm_compute; reflexivity|]. split; [repeat constructor; vm_compute; discriminate|].
    split; [repeat constructor; vm_compute; discriminate|]. exists zeros. eexists. vm_compute. reflexivity.
  - split; [lia|]. split; [vm_compute; reflexivity|]. split; [repeat constructor; vm_compute; discriminate|].
    eexists. vm_compute. reflexivity.
Qed.
Print Assumptions C59_writer_safe.
