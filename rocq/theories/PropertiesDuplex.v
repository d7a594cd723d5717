(** Property theorems C86 and C87: sockets wrapped in a BufReader, a BufWriter
    or both; messages from one peer to the other. *)
From Coq Require Import Lia Permutation.
From Verif Require Import Base ErrorModel RingSpec RingModel BufSpec BufModel SeqProofs RingTheorems BufReaderProofs BufWriterProofs BufClaims
  DuplexModel DuplexSpec DuplexProofs DuplexClaims PropertiesRing.

(** ** C86 *)
(** Whatever is called in whatever order, the reads of a wrapped socket do to
    the reader, and the writes to the writer, what they do to one alone. *)
Theorem C86_reader_of_writer : forall t x x' os xs, dx_run (rw_sock t) x os = (x', xs) ->
  trace (br_step t) (rw_reader x) (map fst (reads_of os xs)) = (rw_reader x', reads_of os xs) /\
  trace (bw_step t) (rw_writer x) (map fst (writes_of os xs)) = (rw_writer x', writes_of os xs).
Proof. exact rw_run. Qed.
Print Assumptions C86_reader_of_writer.

Theorem C86_writer_of_reader : forall t x x' os xs, dx_run (wr_rd_sock t) x os = (x', xs) ->
  trace (br_step t) (wrd_reader x) (map fst (reads_of os xs)) = (wrd_reader x', reads_of os xs) /\
  trace (bw_step t) (wrd_writer x) (map fst (writes_of os xs)) = (wrd_writer x', writes_of os xs).
Proof. exact wrd_run. Qed.
Print Assumptions C86_writer_of_reader.

(** Wrapped in one only: the other direction reaches the socket unbuffered. *)
Theorem C86_unbuffered_writes : forall t x x' os xs, dx_run (rd_sock t) x os = (x', xs) ->
  Forall whonest (ws_script (sk_out (gr_in x))) ->
  trace (br_step t) (rd_reader x) (map fst (reads_of os xs)) = (rd_reader x', reads_of os xs) /\
  trace raw_write (sk_out (gr_in x)) (map fst (writes_of os xs)) = (sk_out (gr_in x'), writes_of os xs) /\
  accepted (sk_out (gr_in x')) = accepted (sk_out (gr_in x)) ++ moved_by (writes_of os xs).
Proof.
  intros t x x' os xs E Hh. destruct (rd_run t _ _ _ _ E) as [A B]. split; [exact A|]. split; [exact B|]. exact (raw_writes_move _ _ _ _ Hh B).
Qed.
Print Assumptions C86_unbuffered_writes.

Theorem C86_unbuffered_reads : forall t x x' os xs, dx_run (wr_sock t) x os = (x', xs) ->
  Forall honest (rs_script (sk_in (gw_in x))) -> Forall (dxop_ok t) os ->
  trace raw_read (sk_in (gw_in x)) (map fst (reads_of os xs)) = (sk_in (gw_in x'), reads_of os xs) /\
  moved_by (reads_of os xs) ++ rs_src (sk_in (gw_in x')) = rs_src (sk_in (gw_in x)) /\
  trace (bw_step t) (wr_writer x) (map fst (writes_of os xs)) = (wr_writer x', writes_of os xs).
Proof.
  intros t x x' os xs E Hh Ho. destruct (wr_run t _ _ _ _ E) as [A B]. split; [exact A|]. split; [|exact B].
  exact (raw_reads_move t _ _ _ _ (reads_ok t os xs Ho) Hh A).
Qed.
Print Assumptions C86_unbuffered_reads.

(** Both streams of a peer survive any interleaving: what was delivered, is
    buffered and has not been read is what arrived; what was reported written
    is what the socket accepted and what is pending - in this order unless a
    write exactly fitted (C48). *)
Theorem C86_streams : forall t e os xs rd wr, good_target t -> ends_ok t e -> Forall (dxop_ok t) os ->
  pos_ok t (e_capw e) (bwops_weight (map fst (writes_of os xs))) ->
  peer_ran t e os xs rd wr ->
  exists buffered pending, br_buffer t rd = Ret buffered /\ bw_buffer t wr = Ret pending /\
    moved_by (reads_of os xs) ++ buffered ++ rs_src (br_src rd) = e_src e /\
    Permutation (moved_by (writes_of os xs)) (accepted (bw_sink wr) ++ pending) /\
    (never_fits t (bw_from_parts (fresh_sink (e_wscript e)) (ring_make (e_capw e) (e_memw e))) (map fst (writes_of os xs)) ->
     moved_by (writes_of os xs) = accepted (bw_sink wr) ++ pending).
Proof.
  intros t e os xs rd wr Hg (C1 & C2 & C3 & C4 & C5 & C6 & C7) Ho Hp [x E|x E].
  - destruct (rw_run t _ _ _ _ E) as [A B]. exact (both_claim t Hg _ _ _ _ _ _ _ _ _ _ _ _ _ C1 C2 C3 C4 (reads_ok t os xs Ho) C5 C6 Hp C7 A B).
  - destruct (wrd_run t _ _ _ _ E) as [A B]. exact (both_claim t Hg _ _ _ _ _ _ _ _ _ _ _ _ _ C1 C2 C3 C4 (reads_ok t os xs Ho) C5 C6 Hp C7 A B).
Qed.
(** Requests and answers crossing: read-ahead, an interrupt, short writes, a
    read-ahead of one byte left in the reader and one byte in the writer. *)
Definition ex_ends : ends :=
  {| e_src := [11;12;13;14;15;16]; e_script := [Give 3; RFail [] (IoSimple Interrupted); Give 9; Give 1];
     e_wscript := [Take 2; Take 1; Take 9; Take 9; Take 9]; e_capr := 4; e_memr := fun _ => 0; e_capw := 5; e_memw := fun _ => 0 |}.
Definition ex_dx : list dxop :=
  [DWrite (WWriteAll [1;2;3]); DRead (BRead 2); DWrite (WWriteAll [4;5;6]); DRead (BExact 3); DWrite WFlush; DWrite (WWrite [7])].
Example C86_case :
  ends_ok (r64 true) ex_ends /\ Forall (dxop_ok (r64 true)) ex_dx /\
  let '(x, xs) := dx_run (rw_sock (r64 true)) (rw_new ex_ends) ex_dx in
  let '(y, ys) := dx_run (wr_rd_sock (r64 true)) (wrd_new ex_ends) ex_dx in
  xs = [([1;2;3], Ret tt); ([11;12], Ret tt); ([4;5;6], Ret tt); ([13;14;15], Ret tt); ([], Ret tt); ([7], Ret tt)] /\ ys = xs /\
  br_buffer (r64 true) (rw_reader x) = Ret [16] /\ bw_buffer (r64 true) (rw_writer x) = Ret [7] /\
  ws_log (bw_sink (rw_writer x)) = [Wrote [1;2]; Wrote [3]; Wrote [4;5;6]; Flushed] /\
  br_buffer (r64 true) (wrd_reader y) = Ret [16] /\ bw_buffer (r64 true) (wrd_writer y) = Ret [7] /\
  ws_log (bw_sink (wrd_writer y)) = [Wrote [1;2]; Wrote [3]; Wrote [4;5;6]; Flushed].
Proof.
  split; [|split].
  - unfold ends_ok. cbn. repeat split; try lia; repeat constructor; try (left; reflexivity).
  - repeat constructor; cbn; unfold is_usize; cbn; lia.
  - vm_compute. repeat split; reflexivity.
Qed.
(** Unbuffered directions: a [write] on [BufReader<Sock>] reaches the socket
    before the call returns; a [read] on [BufWriter<Sock>] takes no more than
    asked for. *)
Example C86_direct_case :
  let x := gr_new (ends_sock ex_ends) 4 (fun _ => 0) in
  let y := gw_from_parts (ends_sock ex_ends) (ring_make 5 (fun _ => 0)) in
  let '(x', xs) := dx_run (rd_sock (r64 true)) x ex_dx in
  let '(y', ys) := dx_run (wr_sock (r64 true)) y ex_dx in
  ws_log (sk_out (gr_in x')) = [Wrote [1;2]; Wrote [3]; Wrote [4;5;6]; Flushed; Wrote [7]] /\
  map snd xs = [Ret tt; Ret tt; Ret tt; Ret tt; Ret tt; Ret tt] /\
  rs_asked (sk_in (gw_in y')) = [2; 3; 3] /\ rs_src (sk_in (gw_in y')) = [16] /\ map snd ys = [Ret tt; Ret tt; Ret tt; Ret tt; Ret tt; Ret tt].
Proof. vm_compute. repeat split; reflexivity. Qed.
Print Assumptions C86_streams.

(** Dropping the wrapped object flushes the writer to the socket, if it did not
    panic, and leaves the arriving bytes alone. *)
Theorem C86_drop : forall t,
  (forall x k r, gw_drop t sock_stream (gr_into_inner x) = (k, r) ->
     sk_in k = sk_in (gw_in (gr_in x)) /\ bw_drop t (rw_writer x) = (sk_out k, r)) /\
  (forall x y r, gw_drop t (reader_stream t sock_stream) x = (y, r) ->
     rd_reader y = wrd_reader x /\ bw_drop t (wrd_writer x) = (sk_out (gr_in y), r)).
Proof.
  intro t. split; intros x k r E.
  - rewrite rw_drop_as in E. destruct (bw_drop t (rw_writer x)) as [s q]. injection E as <- <-. split; reflexivity.
  - rewrite wrd_drop_as in E. destruct (bw_drop t (wrd_writer x)) as [s q]. injection E as <- <-. split; reflexivity.
Qed.
Example C86_drop_case :
  let x := fst (dx_run (rw_sock (r64 true)) (rw_new ex_ends) ex_dx) in
  let '(k, r) := gw_drop (r64 true) sock_stream (gr_into_inner x) in
  r = Ret tt /\ accepted (sk_out (gw_in (gr_in x))) = [1;2;3;4;5;6] /\ accepted (sk_out k) = [1;2;3;4;5;6;7].
Proof. vm_compute. repeat split; reflexivity. Qed.
Print Assumptions C86_drop.

(** ** C87 *)
(** Lines: what one peer writes with [write_all] and flushes, ending every
    message with [c], the other gets message by message with [read_until(c)] -
    whatever the capacities, the sizes of the pieces in which the bytes travel,
    the interrupts, and the traffic in the other direction. *)
Theorem C87_lines : forall t c ms a osa xsa rda wra b osb xsb rdb wrb,
  good_target t -> ends_ok t a -> ends_ok t b -> Forall (fun m => ~ In c m) ms ->
  let lines := map (fun m => m ++ [c]) ms in
  peer_ran t a osa xsa rda wra -> map fst (writes_of osa xsa) = map WWriteAll lines ++ [WFlush] -> all_ok (writes_of osa xsa) ->
  pos_ok t (e_capw a) (zlen (concat lines)) ->
  never_fits t (bw_from_parts (fresh_sink (e_wscript a)) (ring_make (e_capw a) (e_memw a))) (map WWriteAll lines) ->
  e_src b = accepted (bw_sink wra) -> Forall lasting (e_script b) ->
  peer_ran t b osb xsb rdb wrb -> map fst (reads_of osb xsb) = map (fun _ => BUntil c) ms -> all_ok (reads_of osb xsb) ->
  map (fun x => fst (snd x)) (reads_of osb xsb) = lines.
Proof.
  intros t c ms a osa xsa rda wra b osb xsb rdb wrb Hg Ha Hb Hm lines Ra Wa Oka Pa Na Eb Lb Rb Wb Okb.
  destruct Ha as (_ & _ & _ & _ & A5 & A6 & A7). destruct Hb as (B1 & B2 & B3 & B4 & _).
  assert (S : accepted (bw_sink wra) = concat lines).
  { destruct Ra as [x E|x E].
    - destruct (rw_run t _ _ _ _ E) as [_ T]. rewrite Wa in T. exact (sent t Hg _ _ _ _ _ _ A5 A6 Pa A7 Na T Oka).
    - destruct (wrd_run t _ _ _ _ E) as [_ T]. rewrite Wa in T. exact (sent t Hg _ _ _ _ _ _ A5 A6 Pa A7 Na T Oka). }
  destruct (new_bi t Hg (e_capr b) (e_src b) B1 B2 (e_memr b) (e_script b) B4) as (free & Bi).
  assert (Hs : [] ++ rs_src (br_src (br_new (fresh_source (e_src b) (e_script b)) (e_capr b) (e_memr b))) = concat (map (fun m => m ++ [c]) ms) ++ []).
  { cbn [app br_new br_src fresh_source rs_src]. rewrite app_nil_r, Eb. exact S. }
  destruct Rb as [x E|x E].
  - destruct (rw_run t _ _ _ _ E) as [T _]. rewrite Wb in T. exact (lines_claim t Hg (e_capr b) (e_src b) B1 B2 B3 c ms _ _ _ _ _ _ _ Bi Lb Hs Hm T Okb).
  - destruct (wrd_run t _ _ _ _ E) as [T _]. rewrite Wb in T. exact (lines_claim t Hg (e_capr b) (e_src b) B1 B2 B3 c ms _ _ _ _ _ _ _ Bi Lb Hs Hm T Okb).
Qed.
Print Assumptions C87_lines.

(** Frames of known length, with [read_exact]. *)
Theorem C87_frames : forall t ms a osa xsa rda wra b osb xsb rdb wrb,
  good_target t -> ends_ok t a -> ends_ok t b ->
  peer_ran t a osa xsa rda wra -> map fst (writes_of osa xsa) = map WWriteAll ms ++ [WFlush] -> all_ok (writes_of osa xsa) ->
  pos_ok t (e_capw a) (zlen (concat ms)) ->
  never_fits t (bw_from_parts (fresh_sink (e_wscript a)) (ring_make (e_capw a) (e_memw a))) (map WWriteAll ms) ->
  e_src b = accepted (bw_sink wra) ->
  peer_ran t b osb xsb rdb wrb -> map fst (reads_of osb xsb) = map (fun m => BExact (zlen m)) ms -> all_ok (reads_of osb xsb) ->
  map (fun x => fst (snd x)) (reads_of osb xsb) = ms.
Proof.
  intros t ms a osa xsa rda wra b osb xsb rdb wrb Hg Ha Hb Ra Wa Oka Pa Na Eb Rb Wb Okb.
  destruct Ha as (_ & _ & _ & _ & A5 & A6 & A7). destruct Hb as (B1 & B2 & B3 & B4 & _).
  assert (S : accepted (bw_sink wra) = concat ms).
  { destruct Ra as [x E|x E].
    - destruct (rw_run t _ _ _ _ E) as [_ T]. rewrite Wa in T. exact (sent t Hg _ _ _ _ _ _ A5 A6 Pa A7 Na T Oka).
    - destruct (wrd_run t _ _ _ _ E) as [_ T]. rewrite Wa in T. exact (sent t Hg _ _ _ _ _ _ A5 A6 Pa A7 Na T Oka). }
  destruct (new_bi t Hg (e_capr b) (e_src b) B1 B2 (e_memr b) (e_script b) B4) as (free & Bi).
  assert (Hs : [] ++ rs_src (br_src (br_new (fresh_source (e_src b) (e_script b)) (e_capr b) (e_memr b))) = concat ms ++ []).
  { cbn [app br_new br_src fresh_source rs_src]. rewrite app_nil_r, Eb. exact S. }
  destruct Rb as [x E|x E].
  - destruct (rw_run t _ _ _ _ E) as [T _]. rewrite Wb in T. exact (frames_claim t Hg (e_capr b) (e_src b) B1 B2 B3 ms _ _ _ _ _ _ _ Bi Hs T Okb).
  - destruct (wrd_run t _ _ _ _ E) as [T _]. rewrite Wb in T. exact (frames_claim t Hg (e_capr b) (e_src b) B1 B2 B3 ms _ _ _ _ _ _ _ Bi Hs T Okb).
Qed.
(** Two lines, [10] ending each, over rings of 4 and 3 bytes; the peers also
    talk the other way; the second line is longer than both rings. *)
Definition ex_a : ends :=
  {| e_src := [7;7]; e_script := [Give 2]; e_wscript := [Take 2; WFail (IoSimple Interrupted); Take 3; Take 4; Take 9; Take 9];
     e_capr := 2; e_memr := fun _ => 0; e_capw := 4; e_memw := fun _ => 0 |}.
Definition ex_osa : list dxop := [DWrite (WWriteAll [1;2;10]); DRead (BExact 2); DWrite (WWriteAll [3;4;5;6;10]); DWrite WFlush].
Definition ex_b : ends :=
  {| e_src := [1;2;10;3;4;5;6;10]; e_script := [Give 1; Give 5; RFail [9] (IoSimple Interrupted); Give 1; Give 8; Give 8];
     e_wscript := [Take 9; Take 9]; e_capr := 3; e_memr := fun _ => 0; e_capw := 4; e_memw := fun _ => 0 |}.
Definition ex_osb : list dxop := [DWrite (WWriteAll [7;7]); DWrite WFlush; DRead (BUntil 10); DRead (BUntil 10)].
Example C87_case :
  ends_ok (r64 true) ex_a /\ ends_ok (r64 true) ex_b /\ Forall lasting (e_script ex_b) /\
  never_fits (r64 true) (bw_from_parts (fresh_sink (e_wscript ex_a)) (ring_make (e_capw ex_a) (e_memw ex_a))) (map WWriteAll [[1;2;10]; [3;4;5;6;10]]) /\
  let '(x, xs) := dx_run (rw_sock (r64 true)) (rw_new ex_a) ex_osa in
  let '(y, ys) := dx_run (wr_rd_sock (r64 true)) (wrd_new ex_b) ex_osb in
  map fst (writes_of ex_osa xs) = map WWriteAll [[1;2;10]; [3;4;5;6;10]] ++ [WFlush] /\
  map snd xs = [Ret tt; Ret tt; Ret tt; Ret tt] /\ accepted (bw_sink (rw_writer x)) = e_src ex_b /\
  ws_log (bw_sink (rw_writer x)) = [Wrote [1;2]; Wrote [10]; Wrote [3;4;5;6]; Wrote [10]; Flushed] /\
  ys = [([7;7], Ret tt); ([], Ret tt); ([1;2;10], Ret tt); ([3;4;5;6;10], Ret tt)].
Proof.
  split; [|split; [|split; [|split]]].
  1,2: unfold ends_ok; cbn; repeat split; try lia; repeat constructor; try (left; reflexivity).
  - repeat constructor; lia.
  - cbn [map never_fits]. split; [|split; [|exact Logic.I]]; intros buf [E|E]; injection E as <- || discriminate E; vm_compute; try tauto; right; right; discriminate.
  - vm_compute. repeat split; reflexivity.
Qed.
Print Assumptions C87_frames.

(** Without the condition on exact fits the message arrives garbled: four
    bytes in two writes through a ring of 4 arrive out of order. *)
Theorem C87_exact_fit_refuted : exists t ms a osa xsa rda wra,
  good_target t /\ ends_ok t a /\ peer_ran t a osa xsa rda wra /\
  map fst (writes_of osa xsa) = map WWriteAll ms ++ [WFlush] /\ all_ok (writes_of osa xsa) /\
  accepted (bw_sink wra) <> concat ms.
Proof.
  exists (r64 true), [[1]; [2;3;4]],
    {| e_src := []; e_script := []; e_wscript := [Take 9; Take 9; Take 9]; e_capr := 4; e_memr := fun _ => 0; e_capw := 4; e_memw := fun _ => 0 |},
    [DWrite (WWriteAll [1]); DWrite (WWriteAll [2;3;4]); DWrite WFlush],
    [([1], Ret tt); ([2;3;4], Ret tt); ([], Ret tt)].
  do 2 eexists. split; [apply r64_good|]. split; [unfold ends_ok; cbn; repeat split; try lia; repeat constructor; left; reflexivity|].
  split; [apply ran_rw; vm_compute; reflexivity|]. split; [reflexivity|]. split; [repeat constructor|]. vm_compute. discriminate.
Qed.
Print Assumptions C87_exact_fit_refuted.
