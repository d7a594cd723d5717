(** Specification side of the scalar accessors: where the bytes of a value lie
    and what they are. *)
From Verif Require Import Base ErrorModel OsModel MapModel SpanModel.

(** The values of a type of [n] bytes. *)
Definition value_ok (signed : bool) (n v : Z) : Prop :=
  if signed then - 2 ^ (8 * n - 1) <= v < 2 ^ (8 * n - 1) else 0 <= v < 2 ^ (8 * n).
(** Byte [k] of the two's complement representation of [v] in [n] bytes. *)
Definition byte_of (be : bool) (n v k : Z) : byte :=
  (v / 256 ^ (if be then n - 1 - k else k)) mod 256.

(** A power of two that divides the size. *)
Definition good_abi (t : target) (B : abi) : Prop :=
  forall ty, pow2 (align_of B ty) /\ (align_of B ty | size_of t ty).

(** A span of addresses the process can have. *)
Definition span_ok (t : target) (m : mapping) : Prop :=
  0 < m_ptr m /\ 0 <= m_len m /\ m_ptr m + m_len m <= 2 ^ t_bits t.

(** [content s m f]: byte [i] of the span reads [f i]. *)
Definition content {S} (M : memory S) (s : S) (m : mapping) (f : Z -> byte) : Prop :=
  forall i, 0 <= i < m_len m -> mem_load M s (m_ptr m + i) = Ret (f i).

(** The span behaves like an array of bytes in the states [I]: every byte can
    be stored, is then what was stored, and the other bytes stay. *)
Definition array_like {S} (M : memory S) (m : mapping) (I : S -> Prop) : Prop :=
  forall s f i b, I s -> content M s m f -> 0 <= i < m_len m ->
    exists s', mem_store M (m_ptr m + i) b s = (Ret tt, s') /\ I s' /\ content M s' m (upd f i b).

(** The four accessors. *)
Inductive access := ReadVolatile | ReadUnaligned | WriteVolatile (v : Z) | WriteUnaligned (v : Z).
Definition is_volatile (x : access) : bool := match x with ReadVolatile | WriteVolatile _ => true | _ => false end.
(** Forget what was read. *)
Definition done {S A} (x : out error A * S) : out error unit * S :=
  match x with
  | (Ret _, s) => (Ret tt, s) | (Err e, s) => (Err e, s)
  | (Panic, s) => (Panic, s) | (Fault, s) => (Fault, s) | (Blocked, s) => (Blocked, s)
  end.
Definition perform (t : target) (B : abi) {S} (M : memory S) (m : mapping) (ty : scalar) (off : Z) (x : access) (s : S)
  : out error unit * S :=
  match x with
  | ReadVolatile => done (read_volatile t B M m ty off s)
  | ReadUnaligned => done (read_unaligned t B M m ty off s)
  | WriteVolatile v => write_volatile t B M m ty off v s
  | WriteUnaligned v => write_unaligned t B M m ty off v s
  end.
