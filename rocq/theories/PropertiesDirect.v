(** Property theorems C94: the inner object of a BufReader or BufWriter used
    directly, in between the calls on the wrapper.

    Suffix [_partial]: the hypothesis [pos_ok] on the number of bytes that go
    through the buffer (PropertiesBuf.v); on 64-bit targets it only says "fewer
    than 2^64 bytes". *)
From Coq Require Import Lia Permutation.
From Verif Require Import Base ErrorModel RingSpec RingModel BufSpec BufModel SeqProofs RingTheorems RingClaims RingExactSpec BufWriterProofs BufClaims
  BufDirectModel BufDirectSpec BufDirectProofs PropertiesRing PropertiesBuf.

Theorem C94_reader_partial : forall t cap m src script os b outs rs,
  good_target t -> 0 < cap -> 2 * cap < 2 ^ t_bits t -> pos_ok t cap (zlen src) -> Forall honest script -> Forall (rcall_ok t) os ->
  dr_run t (br_new (fresh_source src script) cap m) os = (b, outs, rs) ->
  Forall (fun r => r <> Fault) rs /\
  exists buffered, br_buffer t b = Ret buffered /\ taken_in_turn src os outs buffered (rs_src (br_into_inner b)) /\
    (settled_r t (br_new (fresh_source src script) cap m) os -> src = concat outs ++ buffered ++ rs_src (br_into_inner b)).
Proof.
  intros t cap m src script os b outs rs Hg Hc Hw Hp Hh Ho E.
  assert (Hb : 32 <= t_bits t <= 64) by (destruct Hg as [[->| ->] _]; lia). exact (taken_law t Hb cap Hc Hw src script m os b outs rs Hp Hh Ho E).
Qed.
Print Assumptions C94_reader_partial.

Theorem C94_reader_64bit : forall t cap m src script os b outs rs,
  good_target t -> t_bits t = 64 -> 0 < cap -> 2 * cap < 2 ^ 64 -> zlen src < 2 ^ 64 -> Forall honest script -> Forall (rcall_ok t) os ->
  dr_run t (br_new (fresh_source src script) cap m) os = (b, outs, rs) ->
  Forall (fun r => r <> Fault) rs /\
  exists buffered, br_buffer t b = Ret buffered /\ taken_in_turn src os outs buffered (rs_src (br_into_inner b)) /\
    (settled_r t (br_new (fresh_source src script) cap m) os -> src = concat outs ++ buffered ++ rs_src (br_into_inner b)).
Proof.
  intros t cap m src script os b outs rs Hg H64 Hc Hw Hl Hh Ho E. apply (C94_reader_partial t cap m src script os b outs rs); auto.
  - rewrite H64. exact Hw.
  - split; left; [exact Hl|rewrite H64; exact Hl].
Qed.
(** Three bytes through the buffer (which reads four), two directly, the
    fourth from the buffer, and the rest of the buffer refilled. *)
Example C94_reader_case :
  let os := [ROp (BRead 3); RInner 2; ROp (BExact 2)] in
  exists b, dr_run (r64 true) (br_new (fresh_source [1;2;3;4;5;6;7;8;9] [Give 9; Give 9; Give 2]) 4 zeros) os = (b, [[1;2;3]; [5;6]; [4;7]], [Ret tt; Ret tt; Ret tt]) /\
    br_buffer (r64 true) b = Ret [8] /\ rs_src (br_into_inner b) = [9].
Proof. cbv zeta. eexists. split; [vm_compute; reflexivity|]. split; vm_compute; reflexivity. Qed.
Print Assumptions C94_reader_64bit.

Theorem C94_writer_partial : forall t cap m script os b outs rs,
  good_target t -> 0 < cap -> 2 * cap < 2 ^ t_bits t -> pos_ok t cap (wcalls_weight os) \/ exact_positions t cap -> Forall whonest script ->
  let b0 := bw_from_parts (fresh_sink script) (ring_make cap m) in
  dw_run t b0 os = (b, outs, rs) ->
  Forall (fun r => r <> Fault) rs /\
  exists buffered, bw_buffer t b = Ret buffered /\
    given_in_turn [] os outs buffered (accepted (bw_sink b)) (no_exact_fit t b0 os) /\
    (no_exact_fit t b0 os -> settled_w t b0 os -> concat outs = accepted (bw_sink b) ++ buffered).
Proof.
  intros t cap m script os b outs rs Hg Hc Hw Hp Hh b0 E.
  assert (Rm : room t cap (wcalls_weight os)) by (destruct Hp; [left|right]; auto). 
  assert (Hb : 32 <= t_bits t <= 64) by (destruct Hg as [[->| ->] _]; lia).
  destruct (given_law t Hb cap Hc Hw [] script [] m os b outs rs Rm Hh E) as (F & buffered & acc & E1 & E2 & G & N). cbn in E2. subst acc.
  split; [exact F|]. exists buffered. auto.
Qed.
Print Assumptions C94_writer_partial.

Theorem C94_writer_64bit : forall t cap m script os b outs rs,
  good_target t -> t_bits t = 64 -> 0 < cap -> 2 * cap < 2 ^ 64 -> wcalls_weight os < 2 ^ 64 -> Forall whonest script ->
  let b0 := bw_from_parts (fresh_sink script) (ring_make cap m) in
  dw_run t b0 os = (b, outs, rs) ->
  Forall (fun r => r <> Fault) rs /\
  exists buffered, bw_buffer t b = Ret buffered /\
    given_in_turn [] os outs buffered (accepted (bw_sink b)) (no_exact_fit t b0 os) /\
    (no_exact_fit t b0 os -> settled_w t b0 os -> concat outs = accepted (bw_sink b) ++ buffered).
Proof.
  intros t cap m script os b outs rs Hg H64 Hc Hw Hl Hh. apply C94_writer_partial; auto.
  - rewrite H64. exact Hw.
  - left. split; left; [exact Hl|rewrite H64; exact Hl].
Qed.
(** A direct write overtakes the two buffered bytes; after a flush a direct
    write comes last.  Reported and accepted are the same bytes in another
    order. *)
Example C94_writer_case :
  let os := [WOp (WWriteAll [1;2]); WInner [3;4;5]; WOp WFlush; WInnerFlush; WInner [6]; WOp (WWrite [7])] in
  let b0 := bw_from_parts (fresh_sink [Take 2; Take 9; Take 0; Take 0; Take 9]) (ring_make 4 zeros) in
  no_exact_fit (r64 true) b0 os /\
  exists b, dw_run (r64 true) b0 os = (b, [[1;2]; [3;4]; []; []; [6]; [7]], [Ret tt; Ret tt; Ret tt; Ret tt; Ret tt; Ret tt]) /\
    accepted (bw_sink b) = [3;4;1;2;6] /\ bw_buffer (r64 true) b = Ret [7].
Proof.
  cbv zeta. split.
  - cbn [no_exact_fit].
    split; [|split; [|split; [|split; [|split; [|split; [|exact I]]]]]]; intros buf [X|X]; try discriminate X; injection X as <-; vm_compute; auto.
  - eexists. split; [vm_compute; reflexivity|]. split; vm_compute; reflexivity.
Qed.
(** With the buffer empty at each direct call, all come in order. *)
Example C94_settled_case :
  let os := [WOp (WWriteAll [1;2]); WOp WFlush; WInner [6]; WOp (WWrite [7])] in
  let b0 := bw_from_parts (fresh_sink [Take 9; Take 0; Take 9]) (ring_make 4 zeros) in
  settled_w (r64 true) b0 os /\
  exists b rs, dw_run (r64 true) b0 os = (b, [[1;2]; []; [6]; [7]], rs) /\ accepted (bw_sink b) = [1;2;6] /\ bw_buffer (r64 true) b = Ret [7].
Proof.
  cbv zeta. split.
  - cbn [settled_w]. split; [|split; [|split; [|split; [|exact I]]]]; intros X; try discriminate X; vm_compute; reflexivity.
  - do 2 eexists. split; [vm_compute; reflexivity|]. split; vm_compute; reflexivity.
Qed.
Print Assumptions C94_writer_64bit.
