(** [Ring] and [InfiniteRing] (src/io/ring.rs) over the memory of a machine.

    RingModel.v computes with the N bytes of a ring; here the same code, with
    the traits of src/io/mod.rs as records of functions, loads from and stores
    to addresses.  The machine is any type [W] with [peek] and [poke]: the
    kernel of OsModel.v in ProcModel.v.
    The state of the value and of the machine is kept when a call panics. *)
From Verif Require Import Base SizeModel ErrorModel RingSpec RingModel OsModel MapModel.

(** src/io/ring.rs:58-63 *)
Record kring := { k_ptr : Z; k_len : Z; k_rpos : Z; k_wpos : Z }.
(** src/io/ring.rs:219-224 *)
Record kiring := { ki_ptr : Z; ki_len : Z; ki_rlen : Z; ki_wpos : Z }.

(** src/io/ring.rs:72-81, 233-242, after [map_ring] succeeded *)
Definition kring_new (ptr len : Z) : kring := {| k_ptr := ptr; k_len := len; k_rpos := 0; k_wpos := 0 |}.
Definition kiring_new (ptr len : Z) : kiring := {| ki_ptr := ptr; ki_len := len; ki_rlen := 0; ki_wpos := 0 |}.

Section Mem.
  Variable t : target.
  Variable W : Type.
  Variable peek : W -> Z -> out io_error byte.
  Variable poke : Z -> byte -> W -> out io_error unit * W.

  (** Code with a value of type [V] (behind [&mut self]) on the machine. *)
  Definition RM (V A : Type) : Type := V -> W -> out io_error A * (V * W).
  Definition mret {V A} (a : A) : RM V A := fun s w => (Ret a, (s, w)).
  Definition mout {V A} (f : V -> out io_error A) : RM V A := fun s w => (f s, (s, w)).
  Definition mpanic {V A} : RM V A := fun s w => (Panic, (s, w)).
  Definition mbind {V A B} (x : RM V A) (f : A -> RM V B) : RM V B := fun s w =>
    match x s w with
    | (Ret a, (s', w')) => f a s' w'
    | (Err e, st) => (Err e, st)
    | (Panic, st) => (Panic, st)
    | (Fault, st) => (Fault, st)
    | (Blocked, st) => (Blocked, st)
    end.
  (** An assignment [self.x = ...]: not done when the right side panics. *)
  Definition massign {V} (f : V -> out io_error V) : RM V unit := fun s w =>
    match f s with
    | Ret s' => (Ret tt, (s', w))
    | Err e => (Err e, (s, w))
    | Panic => (Panic, (s, w))
    | Fault => (Fault, (s, w))
    | Blocked => (Blocked, (s, w))
    end.

  (** Copying out of and into memory, byte by byte. *)
  Fixpoint loads (w : W) (a : Z) (n : nat) : out io_error bytes :=
    match n with
    | O => Ret []
    | S n => let* b := peek w a in let* l := loads w (a + 1) n in Ret (b :: l)
    end.
  Fixpoint stores (a : Z) (d : bytes) (w : W) : out io_error unit * W :=
    match d with
    | [] => (Ret tt, w)
    | b :: d => match poke a b w with
                | (Ret _, w') => stores (a + 1) d w'
                | (r, w') => (r, w')
                end
    end.
  Definition mload {V} (a n : Z) : RM V bytes := fun s w => (loads w a (Z.to_nat n), (s, w)).
  Definition mstore {V} (a : Z) (d : bytes) : RM V unit := fun s w =>
    let '(r, w') := stores a d w in (r, (s, w')).

  (** The required methods of [SeqRead], [SeqWrite] and [BufRead]. *)
  Record seq_ops (V : Type) := {
    s_ptr : V -> Z;
    s_read_offset : V -> out io_error Z;
    s_read_len : V -> out io_error Z;
    s_write_offset : V -> out io_error Z;
    s_write_len : V -> out io_error Z;
    s_feed : Z -> RM V unit;
    s_consume : Z -> RM V unit
  }.
  Arguments s_ptr {V}. Arguments s_read_offset {V}. Arguments s_read_len {V}. Arguments s_write_offset {V}.
  Arguments s_write_len {V}. Arguments s_feed {V}. Arguments s_consume {V}.

  Section Traits.
    Context {V : Type}.
    Variable q : seq_ops V.

    (** src/io/mod.rs:44-51: address and length of the slice *)
    Definition as_read_slice (max : Z) : RM V (Z * Z) := mout (fun s =>
      let* off := s_read_offset q s in
      let* len := s_read_len q s in
      Ret (ptr_add t (s_ptr q s) off, Z.min len max)).
    (** src/io/mod.rs:95-102 *)
    Definition as_write_slice (max : Z) : RM V (Z * Z) := mout (fun s =>
      let* off := s_write_offset q s in
      let* len := s_write_len q s in
      Ret (ptr_add t (s_ptr q s) off, Z.min len max)).

    (** Reading what [as_read_slice(max)] shows. *)
    Definition m_peek (max : Z) : RM V bytes :=
      mbind (as_read_slice max) (fun '(a, len) => mload a len).
    (** [as_write_slice(max)[i..i+|d|].copy_from_slice(d)] *)
    Definition m_slice_store (max i : Z) (d : bytes) : RM V unit :=
      mbind (as_write_slice max) (fun '(a, len) =>
        if (0 <=? i) && (i + zlen d <=? len) then mstore (a + i) d else mpanic).

    (** src/io/mod.rs:54-63; [n] is the length of the destination, which is at
        least that of the slice *)
    Definition read_from (n : Z) : RM V bytes :=
      mbind (as_read_slice n) (fun '(a, len) =>
      mbind (mload a len) (fun src =>
      mbind (s_consume q len) (fun _ => mret src))).
    (** src/io/mod.rs:105-114 *)
    Definition write_into (from : bytes) : RM V Z :=
      mbind (as_write_slice (zlen from)) (fun '(a, len) =>
      mbind (mstore a (ztake len from)) (fun _ =>
      mbind (s_feed q len) (fun _ => mret len))).

    (** std [Write::write_all] over [write] = [write_into]; the error
        [WriteZero] is part of the result, as in RingModel.v *)
    Fixpoint write_all_loop (fuel : nat) (buf : bytes) : RM V (option io_error) :=
      match buf with
      | [] => mret None
      | _ =>
        match fuel with
        | O => fun s w => (Blocked, (s, w))
        | S f =>
          mbind (write_into buf) (fun n =>
          if n =? 0 then mret (Some (IoSimple WriteZero)) else write_all_loop f (zdrop n buf))
        end
      end.

    (** std [BufRead::read_until] over [fill_buf] and [consume] *)
    Fixpoint read_until_loop (fuel : nat) (d : byte) (acc : bytes) : RM V bytes :=
      match fuel with
      | O => fun s w => (Blocked, (s, w))
      | S f =>
        mbind (m_peek (umax t)) (fun avail =>
        match find_byte d avail with
        | Some i => mbind (s_consume q (i + 1)) (fun _ => mret (acc ++ ztake (i + 1) avail))
        | None => mbind (s_consume q (zlen avail)) (fun _ =>
            if zlen avail =? 0 then mret acc else read_until_loop f d (acc ++ avail))
        end)
      end.

    (** [bytes::BufMut::put_slice] over src/io/bytes.rs:22-35 *)
    Fixpoint put_loop (fuel : nat) (src : bytes) : RM V unit :=
      match src with
      | [] => mret tt
      | _ =>
        match fuel with
        | O => fun s w => (Blocked, (s, w))
        | S f =>
          mbind (as_write_slice (umax t)) (fun '(a, len) =>
          let cnt := Z.min len (zlen src) in
          mbind (mstore a (ztake cnt src)) (fun _ =>
          mbind (s_feed q cnt) (fun _ => put_loop f (zdrop cnt src))))
        end
      end.
    Definition put_slice (src : bytes) : RM V unit :=
      mbind (mout (s_write_len q)) (fun rem =>
      if rem <? zlen src then mpanic else put_loop (length src) src).
  End Traits.

  (** ** Ring (src/io/ring.rs:86-153) *)
  Definition kring_read_len (r : kring) : out io_error Z :=
    let* d := sub64 t (k_wpos r) (k_rpos r) in Ret (as_usize t d).
  Definition kring_write_len (r : kring) : out io_error Z :=
    let* rl := kring_read_len r in usub t (k_len r) rl.
  Definition kring_ops : seq_ops kring := {|
    s_ptr := k_ptr;
    s_read_offset := fun r => urem (as_usize t (k_rpos r)) (k_len r);
    s_read_len := kring_read_len;
    s_write_offset := fun r => urem (as_usize t (k_wpos r)) (k_len r);
    s_write_len := kring_write_len;
    s_feed := fun n => massign (fun r =>
      let* wl := kring_write_len r in
      let* p := add64 t (k_wpos r) (as_u64 (Z.min n wl)) in
      Ret {| k_ptr := k_ptr r; k_len := k_len r; k_rpos := k_rpos r; k_wpos := p |});
    s_consume := fun n => massign (fun r =>
      let* rl := kring_read_len r in
      let* p := add64 t (k_rpos r) (as_u64 (Z.min n rl)) in
      Ret {| k_ptr := k_ptr r; k_len := k_len r; k_rpos := p; k_wpos := k_wpos r |})
  |}.
  Definition kring_clear : RM kring unit := massign (fun r =>
    Ret {| k_ptr := k_ptr r; k_len := k_len r; k_rpos := 0; k_wpos := 0 |}).

  Definition kring_step (o : rop) : RM kring rout :=
    let unit_call x := mbind x (fun _ => mret OUnit) in
    match o with
    | RWrite b => mbind (write_into kring_ops b) (fun n => mret (OCount n))
    | RWriteAll b => mbind (write_all_loop kring_ops (length b) b) (fun e =>
        mret (match e with None => OUnit | Some e => OErr e end))
    | RRead n => mbind (read_from kring_ops n) (fun b => mret (OBytes b))
    | RConsume n => unit_call (s_consume kring_ops n)
    | RFeed n => unit_call (s_feed kring_ops n)
    | RStore max i d => unit_call (m_slice_store kring_ops max i d)
    | RPeek max => mbind (m_peek kring_ops max) (fun b => mret (OBytes b))
    | RUntil d => mbind (read_until_loop kring_ops 3 d []) (fun b => mret (OBytes b))
    | RPut b => unit_call (put_slice kring_ops b)
    | RClear => unit_call kring_clear
    end.

  (** ** InfiniteRing (src/io/ring.rs:245-313) *)
  Definition kiring_ops : seq_ops kiring := {|
    s_ptr := ki_ptr;
    s_read_offset := fun r => let* d := sub64 t (ki_wpos r) (ki_rlen r) in urem (as_usize t d) (ki_len r);
    s_read_len := fun r => Ret (as_usize t (ki_rlen r));
    s_write_offset := fun r => urem (as_usize t (ki_wpos r)) (ki_len r);
    s_write_len := fun r => Ret (ki_len r);
    s_feed := fun n =>
      mbind (massign (fun r =>
        let* p := add64 t (ki_wpos r) (as_u64 (Z.min n (ki_len r))) in
        Ret {| ki_ptr := ki_ptr r; ki_len := ki_len r; ki_rlen := ki_rlen r; ki_wpos := p |})) (fun _ =>
      massign (fun r =>
        let* x := add64 t (ki_rlen r) (as_u64 n) in
        Ret {| ki_ptr := ki_ptr r; ki_len := ki_len r; ki_rlen := Z.min x (as_u64 (ki_len r)); ki_wpos := ki_wpos r |}));
    s_consume := fun n => massign (fun r =>
      let* l := sub64 t (ki_rlen r) (as_u64 (Z.min n (as_usize t (ki_rlen r)))) in
      Ret {| ki_ptr := ki_ptr r; ki_len := ki_len r; ki_rlen := l; ki_wpos := ki_wpos r |})
  |}.
  (** src/io/ring.rs:303-313 *)
  Definition kiring_write_all (buf : bytes) : RM kiring unit :=
    mbind (as_write_slice kiring_ops (zlen buf)) (fun '(a, len) =>
    mbind (mout (fun _ => usub t (zlen buf) len)) (fun tail =>
    if zlen (zdrop tail buf) =? len then
      mbind (mstore a (zdrop tail buf)) (fun _ => s_feed kiring_ops len)
    else mpanic)).

  Definition kiring_step (o : irop) : RM kiring rout :=
    let unit_call x := mbind x (fun _ => mret OUnit) in
    match o with
    | IWrite b => mbind (write_into kiring_ops b) (fun n => mret (OCount n))
    | IWriteAll b => unit_call (kiring_write_all b)
    | IRead n => mbind (read_from kiring_ops n) (fun b => mret (OBytes b))
    | IConsume n => unit_call (s_consume kiring_ops n)
    | IFeed n => unit_call (s_feed kiring_ops n)
    | IStore max i d => unit_call (m_slice_store kiring_ops max i d)
    | IPeek max => mbind (m_peek kiring_ops max) (fun b => mret (OBytes b))
    end.
End Mem.
