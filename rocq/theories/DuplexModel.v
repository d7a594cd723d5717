(** [BufReader<R>] and [BufWriter<W>] over any inner object, and an object that
    reads and writes (a socket) wrapped in one or both of them, in either
    order (src/io/buffer.rs).

    BufModel.v fixes the inner object to a source or a sink; here the code is
    the same but the inner object is a parameter, because a wrapped object is
    itself an inner object: [BufReader] forwards writing to it, [BufWriter]
    forwards reading. *)
From Verif Require Import Base ErrorModel RingSpec RingModel BufSpec BufModel.

(** What a wrapper calls on the inner object: [Read::read] (the bytes stored
    at the front of the destination and the count), [Write::write],
    [Write::flush].  [s_rleft] and [s_wleft] bound the calls that will still
    be answered; they are only the fuel of loops. *)
Record stream (I : Type) := {
  s_read : Z -> I -> I * bytes * out io_error Z;
  s_write : bytes -> I -> I * out io_error Z;
  s_flush : I -> I * out io_error unit;
  s_rleft : I -> nat;
  s_wleft : I -> nat
}.
Arguments s_read {I}. Arguments s_write {I}. Arguments s_flush {I}. Arguments s_rleft {I}. Arguments s_wleft {I}.

(** The calls a user makes on an object: those of BufSpec.v, with the results
    of [br_step] and [bw_step]. *)
Record duplex (I : Type) := {
  d_read : brop -> I -> I * bytes * out io_error unit;
  d_write : bwop -> I -> I * bytes * out io_error unit
}.
Arguments d_read {I}. Arguments d_write {I}.

(** ** std loops over [read] and [write], as in BufModel.v *)
Section Loops.
  Context {I : Type}.
  (** [Read::read_exact] *)
  Fixpoint std_read_exact (rd : Z -> I -> I * bytes * out io_error Z) (fuel : nat) (i : I) (n : Z) (acc : bytes)
      : I * bytes * out io_error unit :=
    if n <=? 0 then (i, acc, Ret tt) else
    match fuel with
    | O => (i, acc, Blocked)
    | S f =>
      let '(i1, d, r1) := rd n i in
      match r1 with
      | Ret k =>
        if k =? 0 then (i1, acc, Err (IoSimple UnexpectedEof))
        else if n <? k then (i1, acc, Panic)
        else std_read_exact rd f i1 (n - k) (acc ++ d)
      | Err e => match io_kind_of e with
                 | Interrupted => std_read_exact rd f i1 n acc
                 | _ => (i1, acc, Err e)
                 end
      | Panic => (i1, acc, Panic)
      | Fault => (i1, acc, Fault)
      | Blocked => (i1, acc, Blocked)
      end
    end.
  (** [Write::write_all] *)
  Fixpoint std_write_all (wr : bytes -> I -> I * out io_error Z) (fuel : nat) (i : I) (buf told : bytes)
      : I * bytes * out io_error unit :=
    match buf with
    | [] => (i, told, Ret tt)
    | _ =>
      match fuel with
      | O => (i, told, Blocked)
      | S f =>
        let '(i1, r) := wr buf i in
        match r with
        | Ret n =>
          if n =? 0 then (i1, told, Err (IoSimple WriteZero))
          else if zlen buf <? n then (i1, told ++ buf, Panic)
          else std_write_all wr f i1 (zdrop n buf) (told ++ ztake n buf)
        | Err e => match io_kind_of e with
                   | Interrupted => std_write_all wr f i1 buf told
                   | _ => (i1, told, Err e)
                   end
        | Panic => (i1, told, Panic)
        | Fault => (i1, told, Fault)
        | Blocked => (i1, told, Blocked)
        end
      end
    end.
End Loops.

(** ** A socket: independent directions *)
Record sock := { sk_in : rsource; sk_out : wsink }.
Definition sock_read (n : Z) (k : sock) : sock * bytes * out io_error Z :=
  let '(s, d, r) := src_read n (sk_in k) in ({| sk_in := s; sk_out := sk_out k |}, d, r).
Definition sock_write (b : bytes) (k : sock) : sock * out io_error Z :=
  let '(s, r) := sink_write b (sk_out k) in ({| sk_in := sk_in k; sk_out := s |}, r).
Definition sock_flush (k : sock) : sock * out io_error unit :=
  let '(s, r) := sink_flush (sk_out k) in ({| sk_in := sk_in k; sk_out := s |}, r).
Definition sock_stream : stream sock :=
  {| s_read := sock_read; s_write := sock_write; s_flush := sock_flush;
     s_rleft := fun k => length (rs_script (sk_in k)); s_wleft := fun k => length (ws_script (sk_out k)) |}.
(** Its own calls; a socket has no [BufRead], so those calls do nothing. *)
Definition sock_duplex : duplex sock :=
  {| d_read := fun o k =>
       match o with
       | BRead n => let '(k', d, r) := sock_read n k in
                    (k', match r with Ret c => ztake c d | _ => [] end, obind r (fun _ => Ret tt))
       | BExact n => std_read_exact sock_read (Z.to_nat n + length (rs_script (sk_in k)) + 1) k n []
       | _ => (k, [], Ret tt)
       end;
     d_write := fun o k =>
       match o with
       | WWrite buf => let '(k', r) := sock_write buf k in
                       (k', match r with Ret n => ztake n buf | _ => [] end, obind r (fun _ => Ret tt))
       | WWriteAll buf => std_write_all sock_write (length buf + length (ws_script (sk_out k)) + 1) k buf []
       | WFlush => let '(k', r) := sock_flush k in (k', [], r)
       end |}.

(** ** BufReader<R> (src/io/buffer.rs:34-38) *)
Record gread (I : Type) := { gr_ring : ring; gr_in : I; gr_lowat : Z }.
Arguments gr_ring {I}. Arguments gr_in {I}. Arguments gr_lowat {I}. Arguments Build_gread {I}.

Section Reader.
  Variable t : target.
  Context {I : Type}.
  Variable st : stream I.
  Notation rd := (gread I).

  (** src/io/buffer.rs:42-48 *)
  Definition gr_new (i : I) (cap : Z) (m : Z -> byte) : rd := {| gr_ring := ring_make cap m; gr_in := i; gr_lowat := 0 |}.
  Definition gr_with_ring (b : rd) (r : ring) : rd := {| gr_ring := r; gr_in := gr_in b; gr_lowat := gr_lowat b |}.
  Definition gr_with_in (b : rd) (i : I) : rd := {| gr_ring := gr_ring b; gr_in := i; gr_lowat := gr_lowat b |}.
  (** src/io/buffer.rs:73-75, 91-93, 96-98 *)
  Definition gr_set_lowat (b : rd) (v : Z) : rd := {| gr_ring := gr_ring b; gr_in := gr_in b; gr_lowat := v |}.
  Definition gr_buffer (b : rd) : out io_error bytes := ring_read_slice t (gr_ring b) (umax t).
  Definition gr_into_inner (b : rd) : I := gr_in b.

  Definition gr_on_ring {A} (b : rd) (x : out io_error A) (f : A -> rd) : rd * out io_error unit :=
    match x with
    | Ret a => (f a, Ret tt)
    | Err e => (b, Err e)
    | Panic => (b, Panic)
    | Fault => (b, Fault)
    | Blocked => (b, Blocked)
    end.
  (** src/io/buffer.rs:181-187 *)
  Definition gr_fill_buf (b : rd) : rd * out io_error bytes :=
    sbind (b, ring_read_len t (gr_ring b)) (fun b rl =>
    sbind
      (if rl <=? gr_lowat b then
         sbind (b, ring_write_slice t (gr_ring b) (umax t)) (fun b w =>
         let '(i', d, res) := s_read st (zlen w) (gr_in b) in
         let b := gr_with_in b i' in
         sbind (gr_on_ring b (ring_slice_store t (gr_ring b) (umax t) 0 d) (gr_with_ring b)) (fun b _ =>
         sbind (b, res) (fun b n =>
         gr_on_ring b (ring_feed t (gr_ring b) n) (gr_with_ring b))))
       else (b, Ret tt)) (fun b _ =>
    (b, gr_buffer b))).
  (** src/io/buffer.rs:189-191 *)
  Definition gr_consume (b : rd) (n : Z) : rd * out io_error unit :=
    gr_on_ring b (ring_consume t (gr_ring b) n) (gr_with_ring b).
  (** src/io/buffer.rs:138-150 *)
  Definition gr_read (n : Z) (b : rd) : rd * bytes * out io_error Z :=
    let '(b1, r1) := sbind (b, ring_read_len t (gr_ring b)) (fun b rl =>
                       (b, Ret ((rl =? 0) && (ring_write_capacity (gr_ring b) <=? n)))) in
    match r1 with
    | Ret true => let '(i', d, res) := s_read st n (gr_in b1) in (gr_with_in b1 i', d, res)
    | Ret false =>
      let '(b2, r2) := gr_fill_buf b1 in
      match r2 with
      | Ret avail =>
        let d := ztake n avail in
        let '(b3, r3) := gr_consume b2 (zlen d) in
        match r3 with
        | Ret tt => (b3, d, Ret (zlen d))
        | Err e => (b3, [], Err e)
        | Panic => (b3, [], Panic)
        | Fault => (b3, [], Fault)
        | Blocked => (b3, [], Blocked)
        end
      | Err e => (b2, [], Err e)
      | Panic => (b2, [], Panic)
      | Fault => (b2, [], Fault)
      | Blocked => (b2, [], Blocked)
      end
    | Err e => (b1, [], Err e)
    | Panic => (b1, [], Panic)
    | Fault => (b1, [], Fault)
    | Blocked => (b1, [], Blocked)
    end.
  (** std [BufRead::read_until] *)
  Fixpoint gr_until_loop (fuel : nat) (b : rd) (c : byte) (acc : bytes) : rd * bytes * out io_error unit :=
    match fuel with
    | O => (b, acc, Blocked)
    | S f =>
      let '(b1, r1) := gr_fill_buf b in
      match r1 with
      | Ret avail =>
        match find_byte c avail with
        | Some k => let '(b2, r2) := gr_consume b1 (k + 1) in (b2, acc ++ ztake (k + 1) avail, r2)
        | None =>
          let '(b2, r2) := gr_consume b1 (zlen avail) in
          match r2 with
          | Ret tt => if zlen avail =? 0 then (b2, acc, Ret tt) else gr_until_loop f b2 c (acc ++ avail)
          | _ => (b2, acc ++ avail, r2)
          end
        end
      | Err e => match io_kind_of e with
                 | Interrupted => gr_until_loop f b1 c acc
                 | _ => (b1, acc, Err e)
                 end
      | Panic => (b1, acc, Panic)
      | Fault => (b1, acc, Fault)
      | Blocked => (b1, acc, Blocked)
      end
    end.
  Definition gr_step (o : brop) (b : rd) : rd * bytes * out io_error unit :=
    match o with
    | BRead n =>
      let '(b', d, r) := gr_read n b in
      (b', match r with Ret k => ztake k d | _ => [] end, obind r (fun _ => Ret tt))
    | BFill => let '(b', r) := gr_fill_buf b in (b', [], obind r (fun _ => Ret tt))
    | BConsume n =>
      let seen := match gr_buffer b with Ret s => s | _ => [] end in
      let '(b', r) := gr_consume b n in
      (b', ztake n seen, r)
    | BLowat n => (gr_set_lowat b n, [], Ret tt)
    | BUntil c => gr_until_loop (2 * s_rleft st (gr_in b) + 3) b c []
    | BExact n => std_read_exact gr_read (Z.to_nat n + s_rleft st (gr_in b) + 1) b n []
    end.

  (** The pass-through [Write] (src/io/buffer.rs:153-156, 174-177) *)
  Definition reader_stream : stream rd :=
    {| s_read := gr_read;
       s_write := fun buf b => let '(i', r) := s_write st buf (gr_in b) in (gr_with_in b i', r);
       s_flush := fun b => let '(i', r) := s_flush st (gr_in b) in (gr_with_in b i', r);
       s_rleft := fun b => s_rleft st (gr_in b);
       s_wleft := fun b => s_wleft st (gr_in b) |}.
  (** ... of whole calls (src/io/buffer.rs:153-177): [write_all] is the inner
      object's own.  Vectored and formatted writes are not modelled. *)
  Definition reader_duplex (dx : duplex I) : duplex rd :=
    {| d_read := gr_step;
       d_write := fun o b => let '(i', d, r) := d_write dx o (gr_in b) in (gr_with_in b i', d, r) |}.
End Reader.

(** ** BufWriter<W> (src/io/buffer.rs:223-227) *)
Record gwrite (I : Type) := { gw_ring : ring; gw_in : I; gw_panicked : bool }.
Arguments gw_ring {I}. Arguments gw_in {I}. Arguments gw_panicked {I}. Arguments Build_gwrite {I}.

Section Writer.
  Variable t : target.
  Context {I : Type}.
  Variable st : stream I.
  Notation wt := (gwrite I).

  (** src/io/buffer.rs:238-244 *)
  Definition gw_from_parts (i : I) (r : ring) : wt := {| gw_ring := r; gw_in := i; gw_panicked := false |}.
  Definition gw_with_in (b : wt) (i : I) : wt := {| gw_ring := gw_ring b; gw_in := i; gw_panicked := gw_panicked b |}.
  Definition gw_buffer (b : wt) : out io_error bytes := ring_read_slice t (gw_ring b) (umax t).
  (** src/io/buffer.rs:362-364, 428-430 *)
  Definition gw_inner_write (b : wt) (buf : bytes) : wt * out io_error Z :=
    let '(i', r) := s_write st buf (gw_in b) in
    let flag := match r with Ret _ | Err _ => false | _ => true end in
    ({| gw_ring := gw_ring b; gw_in := i'; gw_panicked := flag |}, r).
  (** src/io/buffer.rs:356-375 *)
  Fixpoint gw_flush_loop (fuel : nat) (b : wt) : wt * out io_error unit :=
    match fuel with
    | O => (b, Blocked)
    | S f =>
      sbind (b, ring_is_empty t (gw_ring b)) (fun b empty =>
      if empty then (b, Ret tt) else
      sbind (b, gw_buffer b) (fun b data =>
      let '(b1, r) := gw_inner_write b data in
      match r with
      | Ret n =>
        if n =? 0 then (b1, Err (IoSimple WriteZero))
        else match ring_consume t (gw_ring b1) n with
             | Ret r' => gw_flush_loop f {| gw_ring := r'; gw_in := gw_in b1; gw_panicked := gw_panicked b1 |}
             | Err e => (b1, Err e)
             | Panic => (b1, Panic)
             | Fault => (b1, Fault)
             | Blocked => (b1, Blocked)
             end
      | Err e => match io_kind_of e with
                 | Interrupted => gw_flush_loop f b1
                 | _ => (b1, Err e)
                 end
      | Panic => (b1, Panic)
      | Fault => (b1, Fault)
      | Blocked => (b1, Blocked)
      end))
    end.
  Definition gw_flush_buf (b : wt) : wt * out io_error unit := gw_flush_loop (S (s_wleft st (gw_in b))) b.
  (** src/io/buffer.rs:423-435 *)
  Definition gw_write (buf : bytes) (b : wt) : wt * out io_error Z :=
    sbind (b, ring_write_len t (gw_ring b)) (fun b wl =>
    sbind (if wl <? zlen buf then gw_flush_buf b else (b, Ret tt)) (fun b _ =>
    sbind (b, ring_write_len t (gw_ring b)) (fun b wl' =>
    if wl' <=? zlen buf then gw_inner_write b buf
    else match ring_write t (gw_ring b) buf with
         | Ret (r', n) => ({| gw_ring := r'; gw_in := gw_in b; gw_panicked := gw_panicked b |}, Ret n)
         | Err e => (b, Err e)
         | Panic => (b, Panic)
         | Fault => (b, Fault)
         | Blocked => (b, Blocked)
         end))).
  (** src/io/buffer.rs:437-439 *)
  Definition gw_flush (b : wt) : wt * out io_error unit :=
    sbind (gw_flush_buf b) (fun b _ =>
    let '(i', r) := s_flush st (gw_in b) in
    ({| gw_ring := gw_ring b; gw_in := i'; gw_panicked := gw_panicked b |}, r)).
  (** src/io/buffer.rs:414-420: what remains is the inner object *)
  Definition gw_drop (b : wt) : I * out io_error unit :=
    if gw_panicked b then (gw_in b, Ret tt)
    else let '(b', r) := gw_flush_buf b in (gw_in b', match r with Err _ => Ret tt | r => r end).
  Definition gw_step (o : bwop) (b : wt) : wt * bytes * out io_error unit :=
    match o with
    | WWrite buf =>
      let '(b', r) := gw_write buf b in
      (b', match r with Ret n => ztake n buf | _ => [] end, obind r (fun _ => Ret tt))
    | WWriteAll buf => std_write_all gw_write (length buf + s_wleft st (gw_in b) + 1) b buf []
    | WFlush => let '(b', r) := gw_flush b in (b', [], r)
    end.

  (** The pass-through [Read] (src/io/buffer.rs:443-446) *)
  Definition writer_stream : stream wt :=
    {| s_read := fun n b => let '(i', d, r) := s_read st n (gw_in b) in (gw_with_in b i', d, r);
       s_write := gw_write;
       s_flush := gw_flush;
       s_rleft := fun b => s_rleft st (gw_in b);
       s_wleft := fun b => s_wleft st (gw_in b) |}.
  (** ... of whole calls (src/io/buffer.rs:442-468): [read_exact] is the inner
      object's own; [fill_buf], [consume] and the like reach an inner
      [BufReader] through [DerefMut] (384-389). *)
  Definition writer_duplex (dx : duplex I) : duplex wt :=
    {| d_read := fun o b => let '(i', d, r) := d_read dx o (gw_in b) in (gw_with_in b i', d, r);
       d_write := gw_step |}.
End Writer.

(** ** Histories of calls in both directions *)
Inductive dxop := DRead (o : brop) | DWrite (o : bwop).

(** For every call made, what it moved and how it ended.  A call that does not
    return ends the history. *)
Fixpoint dx_run {I} (dx : duplex I) (i : I) (os : list dxop) : I * list (bytes * out io_error unit) :=
  match os with
  | [] => (i, [])
  | o :: os' =>
    let '(i1, d, r) := match o with DRead o => d_read dx o i | DWrite o => d_write dx o i end in
    match r with
    | Fault | Blocked => (i1, [(d, r)])
    | _ => let '(i2, xs) := dx_run dx i1 os' in (i2, (d, r) :: xs)
    end
  end.

(** ** The wrapped sockets *)
Section Shapes.
  Variable t : target.
  (** [BufReader<Sock>], [BufWriter<Sock>] *)
  Definition rd_sock : duplex (gread sock) := reader_duplex t sock_stream sock_duplex.
  Definition wr_sock : duplex (gwrite sock) := writer_duplex t sock_stream sock_duplex.
  (** [BufReader<BufWriter<Sock>>], [BufWriter<BufReader<Sock>>] *)
  Definition rw_sock : duplex (gread (gwrite sock)) := reader_duplex t (writer_stream t sock_stream) wr_sock.
  Definition wr_rd_sock : duplex (gwrite (gread sock)) := writer_duplex t (reader_stream t sock_stream) rd_sock.
End Shapes.
