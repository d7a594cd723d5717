(** Model of [Ring] and [InfiniteRing] (src/io/ring.rs), of the [SeqRead] and
    [SeqWrite] traits (src/io/mod.rs), of the [bytes] traits (src/io/bytes.rs)
    and of the std default methods users call on them. *)
From Verif Require Import Base SizeModel ErrorModel RingSpec.

(** ** Mirrored memory

    [map_ring] (src/os/unix/posix/mod.rs:22-63) gives a 2N-byte address range
    whose two halves show the same N bytes; [MirrorProofs] proves that of the
    page-table model.  Here the N bytes are a function on 0..N-1 and a virtual
    offset [v] in 0..2N-1 denotes byte [v mod N]. *)
Definition mirror (m : Z -> byte) (n : Z) : Z -> byte := fun v => m (v mod n).

(** A raw slice [ptr+off .. ptr+off+n) of the mapping: forbidden ([Fault])
    when it leaves the 2N-byte range. *)
Definition vslice (len : Z) (m : Z -> byte) (off n : Z) : out io_error bytes :=
  if (0 <=? off) && (0 <=? n) && (off + n <=? 2 * len)
  then Ret (view (mirror m len) off n) else Fault.

(** Storing bytes at consecutive virtual offsets. *)
Fixpoint vstore (len : Z) (m : Z -> byte) (off : Z) (d : bytes) : Z -> byte :=
  match d with
  | [] => m
  | b :: d' => vstore len (upd m (off mod len) b) (off + 1) d'
  end.

(** Rust's [%] on usize: division by zero panics. *)
Definition urem (a b : Z) : out io_error Z := if b =? 0 then Panic else Ret (a mod b).

(** ** Ring (src/io/ring.rs:58-63) *)
Record ring := { r_len : Z; r_rpos : Z; r_wpos : Z; r_mem : Z -> byte }.

(** src/io/ring.rs:72-81, after [map_ring] succeeded with [len] bytes of
    memory [m] (all zero, see [RingMapModel]) *)
Definition ring_make (len : Z) (m : Z -> byte) : ring :=
  {| r_len := len; r_rpos := 0; r_wpos := 0; r_mem := m |}.

(** src/io/ring.rs:86-89 *)
Definition ring_clear (r : ring) : ring :=
  {| r_len := r_len r; r_rpos := 0; r_wpos := 0; r_mem := r_mem r |}.

Section Ring.
  Variable t : target.

  (** src/io/ring.rs:103-105  [self.rpos as usize % self.len] *)
  Definition ring_read_offset (r : ring) : out io_error Z :=
    urem (as_usize t (r_rpos r)) (r_len r).

  (** src/io/ring.rs:107-109  [(self.wpos - self.rpos) as usize] *)
  Definition ring_read_len (r : ring) : out io_error Z :=
    let* d := sub64 t (r_wpos r) (r_rpos r) in
    Ret (as_usize t d).

  (** src/io/ring.rs:117-119 *)
  Definition ring_write_offset (r : ring) : out io_error Z :=
    urem (as_usize t (r_wpos r)) (r_len r).

  (** src/io/ring.rs:125-127 *)
  Definition ring_write_capacity (r : ring) : Z := r_len r.

  (** src/io/ring.rs:121-123 *)
  Definition ring_write_len (r : ring) : out io_error Z :=
    let* rl := ring_read_len r in
    usub t (ring_write_capacity r) rl.

  (** src/io/ring.rs:129-131 *)
  Definition ring_feed (r : ring) (n : Z) : out io_error ring :=
    let* wl := ring_write_len r in
    let* w := add64 t (r_wpos r) (as_u64 (Z.min n wl)) in
    Ret {| r_len := r_len r; r_rpos := r_rpos r; r_wpos := w; r_mem := r_mem r |}.

  (** src/io/ring.rs:139-141 *)
  Definition ring_consume (r : ring) (n : Z) : out io_error ring :=
    let* rl := ring_read_len r in
    let* p := add64 t (r_rpos r) (as_u64 (Z.min n rl)) in
    Ret {| r_len := r_len r; r_rpos := p; r_wpos := r_wpos r; r_mem := r_mem r |}.

  (** src/io/mod.rs:38-40 *)
  Definition ring_is_empty (r : ring) : out io_error bool :=
    let* rl := ring_read_len r in Ret (rl =? 0).

  (** src/io/mod.rs:89-91 *)
  Definition ring_is_full (r : ring) : out io_error bool :=
    let* wl := ring_write_len r in Ret (wl =? 0).

  (** src/io/mod.rs:44-51 *)
  Definition ring_read_slice (r : ring) (max : Z) : out io_error bytes :=
    let* off := ring_read_offset r in
    let* rl := ring_read_len r in
    vslice (r_len r) (r_mem r) off (Z.min rl max).

  (** src/io/mod.rs:95-102: the current bytes of the writable slice *)
  Definition ring_write_slice (r : ring) (max : Z) : out io_error bytes :=
    let* off := ring_write_offset r in
    let* wl := ring_write_len r in
    vslice (r_len r) (r_mem r) off (Z.min wl max).

  (** Storing [d] at index [i] of [as_write_slice(max)], i.e.
      [as_write_slice(max)[i..i+|d|].copy_from_slice(d)]: an index outside the
      slice panics. *)
  Definition ring_slice_store (r : ring) (max i : Z) (d : bytes) : out io_error ring :=
    let* off := ring_write_offset r in
    let* s := ring_write_slice r max in
    if (0 <=? i) && (i + zlen d <=? zlen s)
    then Ret {| r_len := r_len r; r_rpos := r_rpos r; r_wpos := r_wpos r;
                r_mem := vstore (r_len r) (r_mem r) (off + i) d |}
    else Panic.

  (** src/io/mod.rs:54-63 ([read_from]), used by [Read::read]
      (src/io/ring.rs:144-148).  [n] is the destination length; the result is
      what was copied to its front. *)
  Definition ring_read (r : ring) (n : Z) : out io_error (ring * bytes) :=
    let* src := ring_read_slice r n in
    let* r' := ring_consume r (zlen src) in
    Ret (r', src).

  (** src/io/mod.rs:105-114 ([write_into]), used by [Write::write]
      (src/io/ring.rs:150-153) *)
  Definition ring_write (r : ring) (from : bytes) : out io_error (ring * Z) :=
    let* dst := ring_write_slice r (zlen from) in
    let len := zlen dst in
    let* r1 := ring_slice_store r (zlen from) 0 (ztake len from) in
    let* r2 := ring_feed r1 len in
    Ret (r2, len).

  (** std [Write::write_all]: repeat [write] until the buffer is empty;
      [Ok(0)] is the error WriteZero.  Each successful round shortens the
      buffer, so its length is enough fuel; running out is [Blocked] and is
      proved impossible.  The ring is returned with the result because a
      failing call has already stored a prefix. *)
  Fixpoint ring_write_all_loop (fuel : nat) (r : ring) (buf : bytes)
      : out io_error (ring * option io_error) :=
    match buf with
    | [] => Ret (r, None)
    | _ =>
      match fuel with
      | O => Blocked
      | S f =>
        let* p := ring_write r buf in
        let '(r', n) := p in
        if n =? 0 then Ret (r', Some (IoSimple WriteZero))
        else ring_write_all_loop f r' (zdrop n buf)
      end
    end.
  Definition ring_write_all (r : ring) (buf : bytes) :=
    ring_write_all_loop (length buf) r buf.

  (** std [BufRead::read_until] over [fill_buf]/[consume]
      (src/io/ring.rs:134-142); [read_line] is this with the newline byte plus
      a UTF-8 check that is not modelled. *)
  Fixpoint find_byte (d : byte) (l : bytes) : option Z :=
    match l with
    | [] => None
    | b :: l' => if b =? d then Some 0
                 else match find_byte d l' with Some k => Some (k + 1) | None => None end
    end.
  Fixpoint ring_read_until_loop (fuel : nat) (r : ring) (d : byte) (acc : bytes)
      : out io_error (ring * bytes) :=
    match fuel with
    | O => Blocked
    | S f =>
      let* avail := ring_read_slice r (umax t) in
      match find_byte d avail with
      | Some k =>
        let* r' := ring_consume r (k + 1) in
        Ret (r', acc ++ ztake (k + 1) avail)
      | None =>
        let* r' := ring_consume r (zlen avail) in
        if zlen avail =? 0 then Ret (r', acc)
        else ring_read_until_loop f r' d (acc ++ avail)
      end
    end.
  Definition ring_read_until (r : ring) (d : byte) := ring_read_until_loop 3 r d [].

  (** src/io/bytes.rs:9-35 *)
  Definition ring_remaining := ring_read_len.
  Definition ring_chunk (r : ring) := ring_read_slice r (umax t).
  Definition ring_advance := ring_consume.
  Definition ring_remaining_mut := ring_write_len.
  Definition ring_advance_mut := ring_feed.
  Definition ring_chunk_mut (r : ring) := ring_write_slice r (umax t).

  (** [bytes::BufMut::put_slice] (external crate): panics when the remaining
      space is too small, else copies chunk by chunk and advances. *)
  Fixpoint ring_put_loop (fuel : nat) (r : ring) (src : bytes) : out io_error ring :=
    match src with
    | [] => Ret r
    | _ =>
      match fuel with
      | O => Blocked
      | S f =>
        let* dst := ring_chunk_mut r in
        let cnt := Z.min (zlen dst) (zlen src) in
        let* r1 := ring_slice_store r (umax t) 0 (ztake cnt src) in
        let* r2 := ring_advance_mut r1 cnt in
        ring_put_loop f r2 (zdrop cnt src)
      end
    end.
  Definition ring_put_slice (r : ring) (src : bytes) : out io_error ring :=
    let* rem := ring_remaining_mut r in
    if rem <? zlen src then Panic else ring_put_loop (length src) r src.

  (** ** Histories of calls on a Ring *)
  Definition ring_step (r : ring) (o : rop) : out io_error (ring * rout) :=
    match o with
    | RWrite b => let* p := ring_write r b in Ret (fst p, OCount (snd p))
    | RWriteAll b =>
      let* p := ring_write_all r b in
      Ret (fst p, match snd p with None => OUnit | Some e => OErr e end)
    | RRead n => let* p := ring_read r n in Ret (fst p, OBytes (snd p))
    | RConsume n => let* r' := ring_consume r n in Ret (r', OUnit)
    | RFeed n => let* r' := ring_feed r n in Ret (r', OUnit)
    | RStore max i d => let* r' := ring_slice_store r max i d in Ret (r', OUnit)
    | RPeek max => let* s := ring_read_slice r max in Ret (r, OBytes s)
    | RUntil d => let* p := ring_read_until r d in Ret (fst p, OBytes (snd p))
    | RPut b => let* r' := ring_put_slice r b in Ret (r', OUnit)
    | RClear => Ret (ring_clear r, OUnit)
    end.

  Fixpoint ring_run (r : ring) (os : list rop) : out io_error (ring * list rout) :=
    match os with
    | [] => Ret (r, [])
    | o :: os' =>
      let* p := ring_step r o in
      let* q := ring_run (fst p) os' in
      Ret (fst q, snd p :: snd q)
    end.
End Ring.

(** ** InfiniteRing (src/io/ring.rs:219-224) *)
Record iring := { i_len : Z; i_rlen : Z; i_wpos : Z; i_mem : Z -> byte }.

(** src/io/ring.rs:233-242, after [map_ring] succeeded *)
Definition iring_make (len : Z) (m : Z -> byte) : iring :=
  {| i_len := len; i_rlen := 0; i_wpos := 0; i_mem := m |}.

Section IRing.
  Variable t : target.

  (** src/io/ring.rs:255-257  [(self.wpos - self.rlen) as usize % self.len] *)
  Definition iring_read_offset (r : iring) : out io_error Z :=
    let* d := sub64 t (i_wpos r) (i_rlen r) in
    urem (as_usize t d) (i_len r).
  (** src/io/ring.rs:258-260 *)
  Definition iring_read_len (r : iring) : Z := as_usize t (i_rlen r).
  (** src/io/ring.rs:267-269 *)
  Definition iring_write_offset (r : iring) : out io_error Z :=
    urem (as_usize t (i_wpos r)) (i_len r).
  (** src/io/ring.rs:273-275 and 270-272 *)
  Definition iring_write_capacity (r : iring) : Z := i_len r.
  Definition iring_write_len (r : iring) : Z := iring_write_capacity r.

  (** src/io/ring.rs:276-279.  The first assignment happens before the second
      sum is checked; the panicking state is not returned. *)
  Definition iring_feed (r : iring) (n : Z) : out io_error iring :=
    let* w := add64 t (i_wpos r) (as_u64 (Z.min n (iring_write_len r))) in
    let* s := add64 t (i_rlen r) (as_u64 n) in
    Ret {| i_len := i_len r; i_rlen := Z.min s (as_u64 (i_len r)); i_wpos := w;
           i_mem := i_mem r |}.

  (** src/io/ring.rs:287-289 *)
  Definition iring_consume (r : iring) (n : Z) : out io_error iring :=
    let* l := sub64 t (i_rlen r) (as_u64 (Z.min n (iring_read_len r))) in
    Ret {| i_len := i_len r; i_rlen := l; i_wpos := i_wpos r; i_mem := i_mem r |}.

  (** src/io/mod.rs:44-51 *)
  Definition iring_read_slice (r : iring) (max : Z) : out io_error bytes :=
    let* off := iring_read_offset r in
    vslice (i_len r) (i_mem r) off (Z.min (iring_read_len r) max).
  (** src/io/mod.rs:95-102 *)
  Definition iring_write_slice (r : iring) (max : Z) : out io_error bytes :=
    let* off := iring_write_offset r in
    vslice (i_len r) (i_mem r) off (Z.min (iring_write_len r) max).

  (** stores into [as_write_slice(max)] as for [ring_slice_store] *)
  Definition iring_slice_store (r : iring) (max i : Z) (d : bytes) : out io_error iring :=
    let* off := iring_write_offset r in
    let* s := iring_write_slice r max in
    if (0 <=? i) && (i + zlen d <=? zlen s)
    then Ret {| i_len := i_len r; i_rlen := i_rlen r; i_wpos := i_wpos r;
                i_mem := vstore (i_len r) (i_mem r) (off + i) d |}
    else Panic.

  (** src/io/mod.rs:54-63, src/io/ring.rs:292-296 *)
  Definition iring_read (r : iring) (n : Z) : out io_error (iring * bytes) :=
    let* src := iring_read_slice r n in
    let* r' := iring_consume r (zlen src) in
    Ret (r', src).

  (** src/io/mod.rs:105-114, src/io/ring.rs:298-301 *)
  Definition iring_write (r : iring) (from : bytes) : out io_error (iring * Z) :=
    let* dst := iring_write_slice r (zlen from) in
    let len := zlen dst in
    let* r1 := iring_slice_store r (zlen from) 0 (ztake len from) in
    let* r2 := iring_feed r1 len in
    Ret (r2, len).

  (** src/io/ring.rs:303-313 *)
  Definition iring_write_all (r : iring) (buf : bytes) : out io_error iring :=
    let* dst := iring_write_slice r (zlen buf) in
    let len := zlen dst in
    let* tail := usub t (zlen buf) len in
    let* r1 := iring_slice_store r (zlen buf) 0 (zdrop tail buf) in
    iring_feed r1 len.

  Definition iring_step (r : iring) (o : irop) : out io_error (iring * rout) :=
    match o with
    | IWrite b => let* p := iring_write r b in Ret (fst p, OCount (snd p))
    | IWriteAll b => let* r' := iring_write_all r b in Ret (r', OUnit)
    | IRead n => let* p := iring_read r n in Ret (fst p, OBytes (snd p))
    | IConsume n => let* r' := iring_consume r n in Ret (r', OUnit)
    | IFeed n => let* r' := iring_feed r n in Ret (r', OUnit)
    | IStore max i d => let* r' := iring_slice_store r max i d in Ret (r', OUnit)
    | IPeek max => let* s := iring_read_slice r max in Ret (r, OBytes s)
    end.

  Fixpoint iring_run (r : iring) (os : list irop) : out io_error (iring * list rout) :=
    match os with
    | [] => Ret (r, [])
    | o :: os' =>
      let* p := iring_step r o in
      let* q := iring_run (fst p) os' in
      Ret (fst q, snd p :: snd q)
    end.
End IRing.
