(** The provided methods of std's [Read], [BufRead] and [Write], and of
    [bytes::Buf], as users call them on a [Ring] or an [InfiniteRing]
    (src/io/ring.rs:133-153, 281-316, src/io/bytes.rs:9-21).

    Not code of the crate: assumed behaviour of std (Rust 1.6x to 1.8x) and of
    the crate [bytes].  The methods only make the calls of RingSpec.v; the
    object is any state with those calls ([step]), its calls named by [names]. *)
From Verif Require Import Base ErrorModel RingSpec RingModel.

Record names (O : Type) := {
  n_read : Z -> O;              (* Read::read into n bytes *)
  n_peek : Z -> O;              (* fill_buf, cut to at most n bytes *)
  n_consume : Z -> O;           (* BufRead::consume *)
  n_write : bytes -> O;         (* Write::write *)
  n_write_all : bytes -> O      (* Write::write_all *)
}.
Arguments n_read {O}. Arguments n_peek {O}. Arguments n_consume {O}. Arguments n_write {O}. Arguments n_write_all {O}.

Definition ring_names : names rop :=
  {| n_read := RRead; n_peek := RPeek; n_consume := RConsume; n_write := RWrite; n_write_all := RWriteAll |}.
Definition iring_names : names irop :=
  {| n_read := IRead; n_peek := IPeek; n_consume := IConsume; n_write := IWrite; n_write_all := IWriteAll |}.

(** What a method hands to its caller: bytes, and an error if it failed. *)
Definition answer : Type := bytes * option io_error.

(** A program that decides each call by the answers to the ones before. *)
Inductive client (O R : Type) :=
| Done (r : R)
| Call (o : O) (k : rout -> client O R).
Arguments Done {O R}. Arguments Call {O R}.

Section Std.
  Context {St Op : Type}.
  Variable step : St -> Op -> out io_error (St * rout).
  Variable nm : names Op.
  Variable umax : Z.

  Fixpoint client_run {R} (s : St) (c : client Op R) : out io_error (St * R) :=
    match c with
    | Done r => Ret (s, r)
    | Call o k => let* p := step s o in client_run (fst p) (k (snd p))
    end.

  (** A call that answers with bytes. *)
  Definition bytes_of (x : rout) : bytes := match x with OBytes b => b | _ => [] end.

  (** [Read::read_exact]: [Ok(0)] is the error UnexpectedEof.  Every other
      round shortens what is missing. *)
  Fixpoint std_exact (fuel : nat) (s : St) (n : Z) (acc : bytes) : out io_error (St * answer) :=
    if n <=? 0 then Ret (s, (acc, None)) else
    match fuel with
    | O => Blocked
    | S f =>
      let* p := step s (n_read nm n) in
      let got := bytes_of (snd p) in
      if zlen got =? 0 then Ret (fst p, (acc, Some (IoSimple UnexpectedEof)))
      else std_exact f (fst p) (n - zlen got) (acc ++ got)
    end.
  Definition std_read_exact (s : St) (n : Z) := std_exact (Z.to_nat n + 1) s n [].

  (** [Read::read_to_end]: reads until [Ok(0)].  How much is asked for at a
      time ([sizes]) is up to std and not specified; it is never nothing. *)
  Fixpoint std_read_to_end (fuel : nat) (sizes : nat -> Z) (s : St) (acc : bytes) : out io_error (St * bytes) :=
    match fuel with
    | O => Blocked
    | S f =>
      let* p := step s (n_read nm (sizes f)) in
      let got := bytes_of (snd p) in
      if zlen got =? 0 then Ret (fst p, acc) else std_read_to_end f sizes (fst p) (acc ++ got)
    end.

  (** [BufRead::read_until] *)
  Fixpoint std_until_loop (fuel : nat) (s : St) (d : byte) (acc : bytes) : out io_error (St * bytes) :=
    match fuel with
    | O => Blocked
    | S f =>
      let* p := step s (n_peek nm umax) in
      let avail := bytes_of (snd p) in
      match find_byte d avail with
      | Some k => let* p' := step (fst p) (n_consume nm (k + 1)) in Ret (fst p', acc ++ ztake (k + 1) avail)
      | None =>
        let* p' := step (fst p) (n_consume nm (zlen avail)) in
        if zlen avail =? 0 then Ret (fst p', acc) else std_until_loop f (fst p') d (acc ++ avail)
      end
    end.
  Definition std_read_until (s : St) (d : byte) := std_until_loop 3 s d [].

  (** [BufRead::read_line]: a line that is not UTF-8 ([valid]) is the error
      InvalidData, and nothing is appended to the string. *)
  Definition InvalidData : io_error := IoSimple (OtherKind (-2)).
  Definition std_read_line (valid : bytes -> bool) (s : St) : out io_error (St * answer) :=
    let* p := std_read_until s 10 in
    Ret (fst p, if valid (snd p) then (snd p, None) else ([], Some InvalidData)).

  (** [BufRead::split], collected: a trailing delimiter is cut off each piece,
      an empty read ends it. *)
  Definition cut_last (d : byte) (l : bytes) : bytes :=
    match rev l with
    | b :: r => if b =? d then rev r else l
    | [] => []
    end.
  Fixpoint std_split (fuel : nat) (s : St) (d : byte) (acc : list bytes) : out io_error (St * list bytes) :=
    match fuel with
    | O => Blocked
    | S f =>
      let* p := std_read_until s d in
      match snd p with
      | [] => Ret (fst p, acc)
      | b => std_split f (fst p) d (acc ++ [cut_last d b])
      end
    end.

  (** [Read::read_vectored], [Write::write_vectored]: the first buffer that is
      not empty, or an empty one. *)
  Definition first_len (l : list Z) : Z := match filter (fun n => negb (n =? 0)) l with n :: _ => n | [] => 0 end.
  Definition first_buf (l : list bytes) : bytes :=
    match filter (fun b => negb (zlen b =? 0)) l with b :: _ => b | [] => [] end.
  Definition std_read_vectored (s : St) (lens : list Z) := step s (n_read nm (first_len lens)).
  Definition std_write_vectored (s : St) (bufs : list bytes) := step s (n_write nm (first_buf bufs)).

  (** [Write::write_fmt] (the macro [write!]): the formatter hands over
      fragments; each is written with [write_all], the first error ends it. *)
  Fixpoint std_write_fmt (s : St) (frags : list bytes) : out io_error (St * option io_error) :=
    match frags with
    | [] => Ret (s, None)
    | b :: frags =>
      let* p := step s (n_write_all nm b) in
      match snd p with
      | OErr e => Ret (fst p, Some e)
      | _ => std_write_fmt (fst p) frags
      end
    end.
End Std.

Section Buf.
  Variable t : target.
  (** [bytes::Buf::copy_to_slice] over src/io/bytes.rs:9-21: panics when fewer
      than [n] bytes remain, else copies chunk by chunk and advances. *)
  Fixpoint ring_copy_loop (fuel : nat) (r : ring) (n : Z) (acc : bytes) : out io_error (ring * bytes) :=
    if n <=? 0 then Ret (r, acc) else
    match fuel with
    | O => Blocked
    | S f =>
      let* src := ring_chunk t r in
      let cnt := Z.min (zlen src) n in
      let* r' := ring_advance t r cnt in
      ring_copy_loop f r' (n - cnt) (acc ++ ztake cnt src)
    end.
  Definition ring_copy_to_slice (r : ring) (n : Z) : out io_error (ring * bytes) :=
    let* rem := ring_remaining t r in
    if rem <? n then Panic else ring_copy_loop (Z.to_nat n) r n [].
End Buf.
