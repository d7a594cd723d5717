(** The provided methods of std's [Read], [BufRead] and [Write] as users call
    them on a [BufReader] or [BufWriter] (src/io/buffer.rs:137-191, 422-440),
    and [std::io::copy] from one to the other.

    Not code of the crate: assumed behaviour of std (Rust 1.6x to 1.8x).  The
    methods only make calls of BufModel.v.  [read_until], [read_exact] and
    [write_all] are there. *)
From Verif Require Import Base ErrorModel RingSpec RingModel BufSpec BufModel StdModel.

Section Read.
  Variable t : target.

  (** [Read::read_to_end]: reads until [Ok(0)]; Interrupted is retried, another
      error ends it and what was read stays appended.  How much is asked for at
      a time ([sizes]) is up to std.  Every round uses an answer of the inner
      reader or a buffered byte, so the fuel of [br_read_to_end] is enough for
      sources that honour their contract. *)
  Fixpoint br_to_end_loop (fuel : nat) (sizes : nat -> Z) (b : bufreader) (acc : bytes) : bufreader * bytes * out io_error unit :=
    match fuel with
    | O => (b, acc, Blocked)
    | S f =>
      let '(b1, d, r1) := br_read t b (sizes f) in
      match r1 with
      | Ret k => if k =? 0 then (b1, acc, Ret tt) else br_to_end_loop f sizes b1 (acc ++ ztake k d)
      | Err e => match io_kind_of e with
                 | Interrupted => br_to_end_loop f sizes b1 acc
                 | _ => (b1, acc, Err e)
                 end
      | Panic => (b1, acc, Panic)
      | Fault => (b1, acc, Fault)
      | Blocked => (b1, acc, Blocked)
      end
    end.
  Definition br_fuel (b : bufreader) : nat :=
    (length (rs_script (br_src b)) + Z.to_nat (r_len (br_ring b)) + length (rs_src (br_src b)) + 2)%nat.
  Definition br_read_to_end (sizes : nat -> Z) (b : bufreader) := br_to_end_loop (br_fuel b) sizes b [].

  (** What a method that reads into a [String] leaves there ([taken]: the bytes
      it took from the reader): bytes that are not UTF-8 ([valid]) are cut off
      again and, if there was no other error, the error is InvalidData; if a
      call panicked the string is as before. *)
  Definition to_string (valid : bytes -> bool) (taken : bytes) (r : out io_error unit) : bytes * out io_error unit :=
    match r with
    | Ret _ => if valid taken then (taken, Ret tt) else ([], Err InvalidData)
    | Err e => (if valid taken then taken else [], Err e)
    | r => ([], r)
    end.
  (** [BufRead::read_line], [Read::read_to_string]: the state, the bytes taken
      from the reader, and what the caller gets. *)
  Definition br_read_line (valid : bytes -> bool) (b : bufreader) : bufreader * bytes * (bytes * out io_error unit) :=
    let '(b', s, r) := br_read_until t b 10 in (b', s, to_string valid s r).
  Definition br_read_to_string (valid : bytes -> bool) (sizes : nat -> Z) (b : bufreader) : bufreader * bytes * (bytes * out io_error unit) :=
    let '(b', s, r) := br_read_to_end sizes b in (b', s, to_string valid s r).

  (** [BufRead::split] and [BufRead::lines], collected up to the first error:
      the state, the bytes taken from the reader, the items, and the error.  A
      trailing delimiter is cut off each piece (for lines, also a carriage
      return in front of it); an empty read ends it. *)
  Fixpoint br_split_loop (fuel : nat) (b : bufreader) (d : byte) (acc : bytes) (ps : list bytes)
      : bufreader * bytes * list bytes * out io_error unit :=
    match fuel with
    | O => (b, acc, ps, Blocked)
    | S f =>
      let '(b1, s, r) := br_read_until t b d in
      match r with
      | Ret _ => match s with [] => (b1, acc, ps, Ret tt) | _ => br_split_loop f b1 d (acc ++ s) (ps ++ [cut_last d s]) end
      | r => (b1, acc ++ s, ps, r)
      end
    end.
  Definition br_split (b : bufreader) (d : byte) := br_split_loop (br_fuel b) b d [] [].

  Definition cut_line (l : bytes) : bytes :=
    match rev l with
    | x :: r => if x =? 10 then cut_last 13 (rev r) else l
    | [] => []
    end.
  Fixpoint br_lines_loop (valid : bytes -> bool) (fuel : nat) (b : bufreader) (acc : bytes) (ps : list bytes)
      : bufreader * bytes * list bytes * out io_error unit :=
    match fuel with
    | O => (b, acc, ps, Blocked)
    | S f =>
      let '(b1, s, (l, r)) := br_read_line valid b in
      match r with
      | Ret _ => match s with [] => (b1, acc, ps, Ret tt) | _ => br_lines_loop valid f b1 (acc ++ s) (ps ++ [cut_line l]) end
      | r => (b1, acc ++ s, ps, r)
      end
    end.
  Definition br_lines (valid : bytes -> bool) (b : bufreader) := br_lines_loop valid (br_fuel b) b [] [].
End Read.

Section Write.
  Variable t : target.

  (** [Write::write_fmt] (the macro [write!]): the formatter hands over
      fragments; each is written with [write_all], the first error ends it.
      Returns also the bytes reported as written. *)
  Fixpoint bw_write_fmt (b : bufwriter) (frags : list bytes) (told : bytes) : bufwriter * bytes * out io_error unit :=
    match frags with
    | [] => (b, told, Ret tt)
    | x :: frags =>
      let '(b1, tl, r) := bw_write_all t b x in
      match r with
      | Ret _ => bw_write_fmt b1 frags (told ++ tl)
      | r => (b1, told ++ tl, r)
      end
    end.

  (** [std::io::copy] through a buffer on the stack ([sizes]: how much is asked
      for at a time): [read], Interrupted being retried, then [write_all].
      Returns the bytes read (their number is the result of the call) and the
      bytes reported as written. *)
  Fixpoint std_copy_loop (fuel : nat) (sizes : nat -> Z) (b : bufreader) (w : bufwriter) (got told : bytes)
      : bufreader * bufwriter * bytes * bytes * out io_error unit :=
    match fuel with
    | O => (b, w, got, told, Blocked)
    | S f =>
      let '(b1, d, r1) := br_read t b (sizes f) in
      match r1 with
      | Ret k =>
        if k =? 0 then (b1, w, got, told, Ret tt)
        else let '(w1, tl, r2) := bw_write_all t w (ztake k d) in
             match r2 with
             | Ret _ => std_copy_loop f sizes b1 w1 (got ++ ztake k d) (told ++ tl)
             | r2 => (b1, w1, got ++ ztake k d, told ++ tl, r2)
             end
      | Err e => match io_kind_of e with
                 | Interrupted => std_copy_loop f sizes b1 w got told
                 | _ => (b1, w, got, told, Err e)
                 end
      | Panic => (b1, w, got, told, Panic)
      | Fault => (b1, w, got, told, Fault)
      | Blocked => (b1, w, got, told, Blocked)
      end
    end.
  Definition std_copy (sizes : nat -> Z) (b : bufreader) (w : bufwriter) := std_copy_loop (br_fuel b) sizes b w [] [].
End Write.
