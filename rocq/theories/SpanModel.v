(** Model of the [Span] and [SpanMut] traits (src/lib.rs:467-524) and of the
    checks behind them (src/lib.rs:586-608).

    A span is an address and a length; [Map], [MapMut] (src/map.rs:146-156,
    390-407), [&[u8]] and [&mut [u8]] (src/lib.rs:526-555) all return these two.
    The memory below is a parameter: the kernel's mappings, or a slice.

    Simplifications: a scalar access touches its bytes in ascending order
    (nothing else runs in between); a value is an integer, for f32/f64 its bit
    pattern; address arithmetic wraps (in Rust, leaving the allocation with
    [ptr.add] is undefined). *)
From Verif Require Import Base ErrorModel OsModel MapModel.

(** src/lib.rs:571-584 *)
Inductive scalar := U8 | I8 | U16 | I16 | U32 | I32 | U64 | I64 | U128 | I128 | Usize | Isize | F32 | F64.

(** What the compiler's target fixes: the alignment of each type, and the byte
    order. *)
Record abi := { align_of : scalar -> Z; big_endian : bool }.

(** Byte-wise memory with states [S]. *)
Record memory (S : Type) := {
  mem_load : S -> Z -> out error byte;
  mem_store : Z -> byte -> S -> out error unit * S
}.
Arguments mem_load {S} m s a.
Arguments mem_store {S} m a b s.

(** The process' memory as mapped by the kernel. *)
Definition kernel_mem (t : target) : memory world :=
  {| mem_load := fun w a => OsModel.load t w a; mem_store := fun a b w => OsModel.store t a b w |}.
(** A slice of [n] bytes at [p]; the language forbids touching anything else. *)
Definition slice_mem (p n : Z) : memory (Z -> byte) :=
  {| mem_load := fun s a => if (p <=? a) && (a <? p + n) then Ret (s a) else Fault;
     mem_store := fun a b s => if (p <=? a) && (a <? p + n) then (Ret tt, upd s a b) else (Fault, s) |}.

(** The low [n] bytes of an integer, least significant first, and back. *)
Fixpoint to_le (n : nat) (v : Z) : bytes :=
  match n with O => [] | S n => v mod 256 :: to_le n (v / 256) end.
Fixpoint from_le (l : bytes) : Z :=
  match l with [] => 0 | b :: l => b + 256 * from_le l end.

Section Span.
  Variable t : target.
  Variable B : abi.
  Context {S : Type}.
  Variable M : memory S.

  (** [mem::size_of] *)
  Definition size_of (s : scalar) : Z :=
    match s with
    | U8 | I8 => 1
    | U16 | I16 => 2
    | U32 | I32 | F32 => 4
    | U64 | I64 | F64 => 8
    | U128 | I128 => 16
    | Usize | Isize => t_bits t / 8
    end.
  Definition is_signed (s : scalar) : bool :=
    match s with I8 | I16 | I32 | I64 | I128 | Isize => true | _ => false end.

  (** The representation of a value in memory. *)
  Definition encode (s : scalar) (v : Z) : bytes :=
    let l := to_le (Z.to_nat (size_of s)) v in
    if big_endian B then rev l else l.
  Definition decode (s : scalar) (l : bytes) : Z :=
    let v := from_le (if big_endian B then rev l else l) in
    if is_signed s && (2 ^ (8 * size_of s - 1) <=? v) then v - 2 ^ (8 * size_of s) else v.

  (** [ptr::read_*] and [ptr::write_*] of [n] bytes at [a]. *)
  Fixpoint load_bytes (n : nat) (a : Z) (s : S) : out error bytes :=
    match n with
    | O => Ret []
    | Datatypes.S n => let* b := mem_load M s a in
                       let* l := load_bytes n (ptr_add t a 1) s in Ret (b :: l)
    end.
  Fixpoint store_bytes (a : Z) (l : bytes) (s : S) : out error unit * S :=
    match l with
    | [] => (Ret tt, s)
    | b :: l => match mem_store M a b s with
                | (Ret _, s') => store_bytes (ptr_add t a 1) l s'
                | (r, s') => (r, s')
                end
    end.

  (** src/lib.rs:600-608 *)
  Definition assert_capacity (ty : scalar) (off len : Z) : out error unit :=
    let* e := uadd t off (size_of ty) in
    if len <? e then Panic else Ret tt.
  (** src/lib.rs:588-597; the cast of the pointer to usize keeps the address *)
  Definition assert_alignment (ty : scalar) (off ptr : Z) : out error unit :=
    if negb (ptr_add t ptr off mod align_of B ty =? 0) then Panic else Ret tt.

  (** src/lib.rs:486-490, 494-497 *)
  Definition read_volatile (m : mapping) (ty : scalar) (off : Z) (s : S) : out error Z * S :=
    (let* _ := assert_capacity ty off (m_len m) in
     let* _ := assert_alignment ty off (m_ptr m) in
     let* l := load_bytes (Z.to_nat (size_of ty)) (ptr_add t (m_ptr m) off) s in
     Ret (decode ty l), s).
  Definition read_unaligned (m : mapping) (ty : scalar) (off : Z) (s : S) : out error Z * S :=
    (let* _ := assert_capacity ty off (m_len m) in
     let* l := load_bytes (Z.to_nat (size_of ty)) (ptr_add t (m_ptr m) off) s in
     Ret (decode ty l), s).

  (** Run a check, then go on. *)
  Definition after (c : out error unit) (k : S -> out error unit * S) (s : S) : out error unit * S :=
    match c with Ret _ => k s | r => (r, s) end.

  (** src/lib.rs:512-516, 520-523 *)
  Definition write_volatile (m : mapping) (ty : scalar) (off v : Z) (s : S) : out error unit * S :=
    after (assert_capacity ty off (m_len m))
      (after (assert_alignment ty off (m_ptr m))
        (store_bytes (ptr_add t (m_ptr m) off) (encode ty v))) s.
  Definition write_unaligned (m : mapping) (ty : scalar) (off v : Z) (s : S) : out error unit * S :=
    after (assert_capacity ty off (m_len m))
      (store_bytes (ptr_add t (m_ptr m) off) (encode ty v)) s.

  (** src/lib.rs:476-478 *)
  Definition is_empty (m : mapping) : bool := m_len m =? 0.
End Span.
