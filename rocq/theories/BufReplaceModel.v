(** Replacing the inner object of a [BufReader] or [BufWriter] through [&mut]
    ([std::mem::replace] on what [get_mut], [DerefMut] or [AsMut] give:
    src/io/buffer.rs:85-87, 110-115, 127-135, 254-256, 387-392, 404-412).
    None of these touch the ring, the low-water mark or the panic flag: what is
    buffered stays buffered.

    A life of the wrapper is a list of sessions, each with an inner object of
    its own and a history as in BufDirectModel.v; the object a session leaves
    is what [replace] hands back.  A session that faults or hangs is the
    last. *)
From Verif Require Import Base ErrorModel BufSpec BufModel BufDirectModel.

Section Replace.
  Variable t : target.

  Definition dead (rs : list (out io_error unit)) : bool :=
    existsb (fun r => match r with Fault | Blocked => true | _ => false end) rs.

  (** For each session: what each call gave, how it ended, and the source left
      behind. *)
  Fixpoint dr_sessions (b : bufreader) (phs : list (rsource * list rcall)) :
      bufreader * list (list bytes * list (out io_error unit) * rsource) :=
    match phs with
    | [] => (b, [])
    | (s, os) :: rest =>
      let '(b1, outs, rs) := dr_run t (br_with_src b s) os in
      if dead rs then (b1, [(outs, rs, br_src b1)])
      else let '(b2, xs) := dr_sessions b1 rest in (b2, (outs, rs, br_src b1) :: xs)
    end.

  Definition bw_with_sink (b : bufwriter) (s : wsink) : bufwriter :=
    {| bw_ring := bw_ring b; bw_sink := s; bw_panicked := bw_panicked b |}.
  Fixpoint dw_sessions (b : bufwriter) (phs : list (wsink * list wcall)) :
      bufwriter * list (list bytes * list (out io_error unit) * wsink) :=
    match phs with
    | [] => (b, [])
    | (s, os) :: rest =>
      let '(b1, outs, rs) := dw_run t (bw_with_sink b s) os in
      if dead rs then (b1, [(outs, rs, bw_sink b1)])
      else let '(b2, xs) := dw_sessions b1 rest in (b2, (outs, rs, bw_sink b1) :: xs)
    end.
End Replace.
