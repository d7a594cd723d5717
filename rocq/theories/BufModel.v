(** Model of [BufReader] and [BufWriter] (src/io/buffer.rs).

    A call takes the object's state and returns the new state and an outcome;
    the state is returned for every outcome because the object survives an
    error, and survives a panic that the caller catches. *)
From Verif Require Import Base ErrorModel RingSpec RingModel BufSpec.

(** Sequencing: continue after [Ret] only. *)
Definition sbind {S E A B} (x : S * out E A) (f : S -> A -> S * out E B) : S * out E B :=
  let '(s, r) := x in
  match r with
  | Ret a => f s a
  | Err e => (s, Err e)
  | Panic => (s, Panic)
  | Fault => (s, Fault)
  | Blocked => (s, Blocked)
  end.

(** ** BufReader (src/io/buffer.rs:34-38) *)
Record bufreader := { br_ring : ring; br_src : rsource; br_lowat : Z }.

Definition br_with_ring (b : bufreader) (r : ring) : bufreader :=
  {| br_ring := r; br_src := br_src b; br_lowat := br_lowat b |}.
Definition br_with_src (b : bufreader) (s : rsource) : bufreader :=
  {| br_ring := br_ring b; br_src := s; br_lowat := br_lowat b |}.

Section Reader.
  Variable t : target.

  (** src/io/buffer.rs:42-48, the ring being allocated as in [ring_make] *)
  Definition br_new (s : rsource) (cap : Z) (m : Z -> byte) : bufreader :=
    {| br_ring := ring_make cap m; br_src := s; br_lowat := 0 |}.

  (** src/io/buffer.rs:52-54 *)
  Definition br_get_lowat (b : bufreader) : Z := br_lowat b.

  (** src/io/buffer.rs:73-75 *)
  Definition br_set_lowat (b : bufreader) (v : Z) : bufreader :=
    {| br_ring := br_ring b; br_src := br_src b; br_lowat := v |}.

  (** src/io/buffer.rs:91-93 *)
  Definition br_buffer (b : bufreader) : out io_error bytes :=
    ring_read_slice t (br_ring b) (umax t).

  (** src/io/buffer.rs:96-98 *)
  Definition br_into_inner (b : bufreader) : rsource := br_src b.

  (** A ring operation inside a call. *)
  Definition on_ring {A} (b : bufreader) (x : out io_error A) (f : A -> bufreader)
      : bufreader * out io_error unit :=
    match x with
    | Ret a => (f a, Ret tt)
    | Err e => (b, Err e)
    | Panic => (b, Panic)
    | Fault => (b, Fault)
    | Blocked => (b, Blocked)
    end.

  (** src/io/buffer.rs:181-187.  The inner reader gets the writable slice as
      its destination: what it stores there is stored in the ring whatever the
      call returns. *)
  Definition br_fill_buf (b : bufreader) : bufreader * out io_error bytes :=
    sbind (b, ring_read_len t (br_ring b)) (fun b rl =>
    sbind
      (if rl <=? br_lowat b then
         sbind (b, ring_write_slice t (br_ring b) (umax t)) (fun b w =>
         let '(s', d, res) := src_read (zlen w) (br_src b) in
         let b := br_with_src b s' in
         sbind (on_ring b (ring_slice_store t (br_ring b) (umax t) 0 d) (br_with_ring b)) (fun b _ =>
         sbind (b, res) (fun b n =>
         on_ring b (ring_feed t (br_ring b) n) (br_with_ring b))))
       else (b, Ret tt)) (fun b _ =>
    (b, br_buffer b))).

  (** src/io/buffer.rs:189-191 *)
  Definition br_consume (b : bufreader) (n : Z) : bufreader * out io_error unit :=
    on_ring b (ring_consume t (br_ring b) n) (br_with_ring b).

  (** src/io/buffer.rs:138-150.  The result is the count and the bytes now at
      the front of the destination of [n] bytes.  [rem.read(buf)] on a byte
      slice copies the minimum of the two lengths. *)
  Definition br_read (b : bufreader) (n : Z) : bufreader * bytes * out io_error Z :=
    let '(b1, r1) := sbind (b, ring_read_len t (br_ring b)) (fun b rl =>
                       (b, Ret ((rl =? 0) && (ring_write_capacity (br_ring b) <=? n)))) in
    match r1 with
    | Ret true =>
      let '(s', d, res) := src_read n (br_src b1) in (br_with_src b1 s', d, res)
    | Ret false =>
      let '(b2, r2) := br_fill_buf b1 in
      match r2 with
      | Ret avail =>
        let d := ztake n avail in
        let '(b3, r3) := br_consume b2 (zlen d) in
        match r3 with
        | Ret tt => (b3, d, Ret (zlen d))
        | Err e => (b3, [], Err e)
        | Panic => (b3, [], Panic)
        | Fault => (b3, [], Fault)
        | Blocked => (b3, [], Blocked)
        end
      | Err e => (b2, [], Err e)
      | Panic => (b2, [], Panic)
      | Fault => (b2, [], Fault)
      | Blocked => (b2, [], Blocked)
      end
    | Err e => (b1, [], Err e)
    | Panic => (b1, [], Panic)
    | Fault => (b1, [], Fault)
    | Blocked => (b1, [], Blocked)
    end.

  (** std [BufRead::read_until] over [fill_buf]/[consume]: an Interrupted
      error of fill_buf is retried, bytes already appended stay appended when
      another error ends the call.  Every round consumes an answer of the
      inner reader or is followed by one that does, so twice the script length
      is enough fuel; [read_line] is this with the newline byte plus a UTF-8
      check that is not modelled. *)
  Fixpoint br_until_loop (fuel : nat) (b : bufreader) (c : byte) (acc : bytes)
      : bufreader * bytes * out io_error unit :=
    match fuel with
    | O => (b, acc, Blocked)
    | S f =>
      let '(b1, r1) := br_fill_buf b in
      match r1 with
      | Ret avail =>
        match find_byte c avail with
        | Some k =>
          let '(b2, r2) := br_consume b1 (k + 1) in (b2, acc ++ ztake (k + 1) avail, r2)
        | None =>
          let '(b2, r2) := br_consume b1 (zlen avail) in
          match r2 with
          | Ret tt => if zlen avail =? 0 then (b2, acc, Ret tt)
                      else br_until_loop f b2 c (acc ++ avail)
          | _ => (b2, acc ++ avail, r2)
          end
        end
      | Err e => match io_kind_of e with
                 | Interrupted => br_until_loop f b1 c acc
                 | _ => (b1, acc, Err e)
                 end
      | Panic => (b1, acc, Panic)
      | Fault => (b1, acc, Fault)
      | Blocked => (b1, acc, Blocked)
      end
    end.
  Definition br_read_until (b : bufreader) (c : byte) :=
    br_until_loop (2 * length (rs_script (br_src b)) + 3) b c [].

  (** std [Read::read_exact]: repeat [read] on what is left of the buffer;
      Interrupted is retried, [Ok(0)] ends the loop with UnexpectedEof if
      bytes are missing; slicing past the end (a count beyond the buffer)
      panics. *)
  Fixpoint br_exact_loop (fuel : nat) (b : bufreader) (n : Z) (acc : bytes)
      : bufreader * bytes * out io_error unit :=
    if n <=? 0 then (b, acc, Ret tt) else
    match fuel with
    | O => (b, acc, Blocked)
    | S f =>
      let '(b1, d, r1) := br_read b n in
      match r1 with
      | Ret k =>
        if k =? 0 then (b1, acc, Err (IoSimple UnexpectedEof))
        else if n <? k then (b1, acc, Panic)
        else br_exact_loop f b1 (n - k) (acc ++ d)
      | Err e => match io_kind_of e with
                 | Interrupted => br_exact_loop f b1 n acc
                 | _ => (b1, acc, Err e)
                 end
      | Panic => (b1, acc, Panic)
      | Fault => (b1, acc, Fault)
      | Blocked => (b1, acc, Blocked)
      end
    end.
  Definition br_read_exact (b : bufreader) (n : Z) :=
    br_exact_loop (Z.to_nat n + length (rs_script (br_src b)) + 1) b n [].

  (** One call of a history: the new state, the bytes that left the reader
      (returned, appended, or consumed after having been looked at), and
      whether and how the call ended. *)
  Definition br_step (b : bufreader) (o : brop) : bufreader * bytes * out io_error unit :=
    match o with
    | BRead n =>
      let '(b', d, r) := br_read b n in
      (b', match r with Ret k => ztake k d | _ => [] end, obind r (fun _ => Ret tt))
    | BFill => let '(b', r) := br_fill_buf b in (b', [], obind r (fun _ => Ret tt))
    | BConsume n =>
      let seen := match br_buffer b with Ret s => s | _ => [] end in
      let '(b', r) := br_consume b n in
      (b', ztake n seen, r)
    | BLowat n => (br_set_lowat b n, [], Ret tt)
    | BUntil c => br_read_until b c
    | BExact n => br_read_exact b n
    end.

  (** A history.  Errors and (caught) panics do not end it; a call that does
      not return does. *)
  Fixpoint br_run (b : bufreader) (os : list brop) : bufreader * bytes * list (out io_error unit) :=
    match os with
    | [] => (b, [], [])
    | o :: os' =>
      let '(b1, d, r) := br_step b o in
      match r with
      | Fault | Blocked => (b1, d, [r])
      | _ => let '(b2, ds, rs) := br_run b1 os' in (b2, d ++ ds, r :: rs)
      end
    end.
End Reader.

(** ** BufWriter (src/io/buffer.rs:223-227) *)
Record bufwriter := { bw_ring : ring; bw_sink : wsink; bw_panicked : bool }.

Section Writer.
  Variable t : target.

  (** src/io/buffer.rs:238-244; [new] (231-233) is this on a fresh ring *)
  Definition bw_from_parts (s : wsink) (r : ring) : bufwriter :=
    {| bw_ring := r; bw_sink := s; bw_panicked := false |}.

  Definition bw_buffer (b : bufwriter) : out io_error bytes :=
    ring_read_slice t (bw_ring b) (umax t).

  (** [self.panicked = true; let r = self.inner.write(buf); self.panicked =
      false;] (src/io/buffer.rs:362-364 and 428-430): the flag stays set when
      the call does not return normally. *)
  Definition bw_inner_write (b : bufwriter) (buf : bytes) : bufwriter * out io_error Z :=
    let '(s', r) := sink_write buf (bw_sink b) in
    let flag := match r with Ret _ | Err _ => false | _ => true end in
    ({| bw_ring := bw_ring b; bw_sink := s'; bw_panicked := flag |}, r).

  (** src/io/buffer.rs:356-375.  Every round uses up one answer of the inner
      writer, so one more than the script length is enough fuel. *)
  Fixpoint bw_flush_loop (fuel : nat) (b : bufwriter) : bufwriter * out io_error unit :=
    match fuel with
    | O => (b, Blocked)
    | S f =>
      sbind (b, ring_is_empty t (bw_ring b)) (fun b empty =>
      if empty then (b, Ret tt) else
      sbind (b, bw_buffer b) (fun b data =>
      let '(b1, r) := bw_inner_write b data in
      match r with
      | Ret n =>
        if n =? 0 then (b1, Err (IoSimple WriteZero))
        else match ring_consume t (bw_ring b1) n with
             | Ret r' => bw_flush_loop f {| bw_ring := r'; bw_sink := bw_sink b1;
                                            bw_panicked := bw_panicked b1 |}
             | Err e => (b1, Err e)
             | Panic => (b1, Panic)
             | Fault => (b1, Fault)
             | Blocked => (b1, Blocked)
             end
      | Err e => match io_kind_of e with
                 | Interrupted => bw_flush_loop f b1
                 | _ => (b1, Err e)
                 end
      | Panic => (b1, Panic)
      | Fault => (b1, Fault)
      | Blocked => (b1, Blocked)
      end))
    end.
  Definition bw_flush_buf (b : bufwriter) : bufwriter * out io_error unit :=
    bw_flush_loop (S (length (ws_script (bw_sink b)))) b.

  (** src/io/buffer.rs:423-435 *)
  Definition bw_write (b : bufwriter) (buf : bytes) : bufwriter * out io_error Z :=
    sbind (b, ring_write_len t (bw_ring b)) (fun b wl =>
    sbind (if wl <? zlen buf then bw_flush_buf b else (b, Ret tt)) (fun b _ =>
    sbind (b, ring_write_len t (bw_ring b)) (fun b wl' =>
    if wl' <=? zlen buf then bw_inner_write b buf
    else match ring_write t (bw_ring b) buf with
         | Ret (r', n) => ({| bw_ring := r'; bw_sink := bw_sink b; bw_panicked := bw_panicked b |}, Ret n)
         | Err e => (b, Err e)
         | Panic => (b, Panic)
         | Fault => (b, Fault)
         | Blocked => (b, Blocked)
         end))).

  (** src/io/buffer.rs:437-439 *)
  Definition bw_flush (b : bufwriter) : bufwriter * out io_error unit :=
    sbind (bw_flush_buf b) (fun b _ =>
    let '(s', r) := sink_flush (bw_sink b) in
    ({| bw_ring := bw_ring b; bw_sink := s'; bw_panicked := bw_panicked b |}, r)).

  (** src/io/buffer.rs:341-354: the writer, and the ring with the flag that
      tells [Ok] from [Err(WriterPanicked)] *)
  Definition bw_into_parts (b : bufwriter) : wsink * (ring * bool) :=
    (bw_sink b, (bw_ring b, bw_panicked b)).

  (** src/io/buffer.rs:414-420: errors are discarded, a panic propagates.
      What remains is the inner writer (dropped next, in its final state). *)
  Definition bw_drop (b : bufwriter) : wsink * out io_error unit :=
    if bw_panicked b then (bw_sink b, Ret tt)
    else let '(b', r) := bw_flush_buf b in
         (bw_sink b', match r with Err _ => Ret tt | r => r end).

  (** src/io/buffer.rs:301-306.  [Err] carries the object back
      ([IntoInnerError]); a panic drops [self] while unwinding. *)
  Inductive into_result :=
  | Inner (s : wsink)
  | Back (b : bufwriter) (e : io_error)
  | Unwound (s : wsink) (r : out io_error unit).
  Definition bw_into_inner (b : bufwriter) : into_result :=
    let '(b', r) := bw_flush_buf b in
    match r with
    | Ret _ => Inner (fst (bw_into_parts b'))
    | Err e => Back b' e
    | r => Unwound (match r with Panic => fst (bw_drop b') | _ => bw_sink b' end) r
    end.

  (** src/io/buffer.rs:472-499, the accessors of [IntoInnerError] *)
  Definition iie_error (p : bufwriter * io_error) : io_error := snd p.
  Definition iie_into_inner (p : bufwriter * io_error) : bufwriter := fst p.
  Definition iie_into_parts (p : bufwriter * io_error) : io_error * bufwriter := (snd p, fst p).

  (** std [Write::write_all] over [bw_write]: Ok(0) is WriteZero, Interrupted
      is retried, a count beyond the buffer panics (slice index).  Returns
      also the bytes that the successful [write] calls reported as written. *)
  Fixpoint bw_write_all_loop (fuel : nat) (b : bufwriter) (buf told : bytes)
      : bufwriter * bytes * out io_error unit :=
    match buf with
    | [] => (b, told, Ret tt)
    | _ =>
      match fuel with
      | O => (b, told, Blocked)
      | S f =>
        let '(b1, r) := bw_write b buf in
        match r with
        | Ret n =>
          if n =? 0 then (b1, told, Err (IoSimple WriteZero))
          else if zlen buf <? n then (b1, told ++ buf, Panic)
          else bw_write_all_loop f b1 (zdrop n buf) (told ++ ztake n buf)
        | Err e => match io_kind_of e with
                   | Interrupted => bw_write_all_loop f b1 buf told
                   | _ => (b1, told, Err e)
                   end
        | Panic => (b1, told, Panic)
        | Fault => (b1, told, Fault)
        | Blocked => (b1, told, Blocked)
        end
      end
    end.
  Definition bw_write_all (b : bufwriter) (buf : bytes) :=
    bw_write_all_loop (length buf + length (ws_script (bw_sink b)) + 1) b buf [].

  (** One call of a history: the new state, the bytes reported as written,
      how the call ended. *)
  Definition bw_step (b : bufwriter) (o : bwop) : bufwriter * bytes * out io_error unit :=
    match o with
    | WWrite buf =>
      let '(b', r) := bw_write b buf in
      (b', match r with Ret n => ztake n buf | _ => [] end, obind r (fun _ => Ret tt))
    | WWriteAll buf => bw_write_all b buf
    | WFlush => let '(b', r) := bw_flush b in (b', [], r)
    end.

  Fixpoint bw_run (b : bufwriter) (os : list bwop) : bufwriter * bytes * list (out io_error unit) :=
    match os with
    | [] => (b, [], [])
    | o :: os' =>
      let '(b1, d, r) := bw_step b o in
      match r with
      | Fault | Blocked => (b1, d, [r])
      | _ => let '(b2, ds, rs) := bw_run b1 os' in (b2, d ++ ds, r :: rs)
      end
    end.
End Writer.
