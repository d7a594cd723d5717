(** Base definitions shared by every model file: outcomes, machine integers,
    byte sequences.  Definitions only, no proofs. *)
From Coq Require Export ZArith List Bool.
Export ListNotations.
Open Scope Z_scope.

(** How a call ends.  [Ret] is a normal return; [Err] is Rust's
    [Result::Err]; [Panic] is an unwinding panic (also an arithmetic-overflow
    panic when overflow checks are on); [Fault] is an access the hardware or
    the language forbids (SIGSEGV, SIGBUS, out-of-bounds raw slice);
    [Blocked] means that a call into caller-supplied code (an inner reader or
    writer) has not returned: the scripted behaviour is exhausted. *)
Inductive out (E A : Type) : Type :=
| Ret (a : A)
| Err (e : E)
| Panic
| Fault
| Blocked.
Arguments Ret {E A} a.
Arguments Err {E A} e.
Arguments Panic {E A}.
Arguments Fault {E A}.
Arguments Blocked {E A}.

Definition obind {E A B} (x : out E A) (f : A -> out E B) : out E B :=
  match x with
  | Ret a => f a
  | Err e => Err e
  | Panic => Panic
  | Fault => Fault
  | Blocked => Blocked
  end.

Notation "'let*' x := e 'in' k" := (obind e (fun x => k))
  (at level 200, x pattern, e at level 200, k at level 200, right associativity).

(** The build target.  Rust's [usize] has 32 or 64 bits; arithmetic overflow
    panics when overflow checks are on (debug profile) and wraps otherwise
    (release profile).  [t_page]/[t_alloc] are what the system reports to
    src/lib.rs:278-283. *)
Record target := {
  t_bits : Z;
  t_checks : bool;
  t_page : Z;
  t_alloc : Z
}.

Definition pow2 (x : Z) : Prop := exists k, 0 <= k /\ x = 2 ^ k.

(** Targets the crate can run on: 32/64-bit, the page and the allocation
    sizes are powers of two that fit the u32 values of [system_info]
    (src/os/unix/mod.rs:32-35, src/os/windows.rs:92-99), the allocation size
    is not below the page size, and there is more than one allocation unit in
    the address space. *)
Definition good_target (t : target) : Prop :=
  (t_bits t = 32 \/ t_bits t = 64) /\
  pow2 (t_page t) /\ pow2 (t_alloc t) /\
  t_page t <= t_alloc t /\ t_alloc t < 2 ^ 32 /\ 8 <= t_page t.

(** On POSIX [system_info] returns the same value twice
    (src/os/unix/mod.rs:32-35). *)
Definition posix_target (t : target) : Prop :=
  good_target t /\ t_alloc t = t_page t.

Definition umax (t : target) : Z := 2 ^ t_bits t - 1.
Definition is_usize (t : target) (x : Z) : Prop := 0 <= x < 2 ^ t_bits t.

(** Unsigned arithmetic on an [n]-bit type, with the overflow behaviour of
    the profile: panic when checked, wrap otherwise. *)
Definition wrap {E} (checks : bool) (n : Z) (x : Z) : out E Z :=
  if (0 <=? x) && (x <? 2 ^ n) then Ret x
  else if checks then Panic else Ret (x mod 2 ^ n).

Definition uadd {E} (t : target) (a b : Z) : out E Z :=
  wrap (t_checks t) (t_bits t) (a + b).
Definition usub {E} (t : target) (a b : Z) : out E Z :=
  wrap (t_checks t) (t_bits t) (a - b).
Definition umul {E} (t : target) (a b : Z) : out E Z :=
  wrap (t_checks t) (t_bits t) (a * b).
Definition add64 {E} (t : target) (a b : Z) : out E Z :=
  wrap (t_checks t) 64 (a + b).
Definition sub64 {E} (t : target) (a b : Z) : out E Z :=
  wrap (t_checks t) 64 (a - b).

(** [x as usize] / [x as u32] / [x as u64]: truncation, never a panic. *)
Definition as_usize (t : target) (x : Z) : Z := x mod 2 ^ t_bits t.
Definition as_u32 (x : Z) : Z := x mod 2 ^ 32.
Definition as_u64 (x : Z) : Z := x mod 2 ^ 64.

(** [x as isize] / [x as off_t] of a usize: reinterpretation as a signed
    number of the same width (off_t has the width of the target's word in the
    libc bindings used here). *)
Definition as_signed (t : target) (x : Z) : Z :=
  if x <? 2 ^ (t_bits t - 1) then x else x - 2 ^ t_bits t.

(** Bitwise complement of a usize. *)
Definition unot (t : target) (x : Z) : Z := 2 ^ t_bits t - 1 - x.

(** [usize::trailing_zeros]; the word width for 0. *)
Fixpoint ctz_pos (p : positive) : Z :=
  match p with
  | xO q => 1 + ctz_pos q
  | _ => 0
  end.
Definition trailing_zeros (t : target) (x : Z) : Z :=
  match x with
  | Zpos p => ctz_pos p
  | _ => t_bits t
  end.

(** [x << s] / [x >> s] on usize: a shift by the width or more is an
    arithmetic overflow (panic when checked, the amount is masked otherwise);
    bits shifted out of the word are dropped silently. *)
Definition ushl {E} (t : target) (x s : Z) : out E Z :=
  if s <? t_bits t then Ret ((x * 2 ^ s) mod 2 ^ t_bits t)
  else if t_checks t then Panic
       else Ret ((x * 2 ^ (s mod t_bits t)) mod 2 ^ t_bits t).
Definition ushr {E} (t : target) (x s : Z) : out E Z :=
  if s <? t_bits t then Ret (x / 2 ^ s)
  else if t_checks t then Panic else Ret (x / 2 ^ (s mod t_bits t)).

(** Bytes and byte strings.  A byte is an integer; only the scalar accessors
    need it to be in 0..255 and say so. *)
Definition byte := Z.
Definition bytes := list byte.

Definition zlen {A} (l : list A) : Z := Z.of_nat (length l).
Definition ztake {A} (n : Z) (l : list A) : list A := firstn (Z.to_nat n) l.
Definition zdrop {A} (n : Z) (l : list A) : list A := skipn (Z.to_nat n) l.

(** Byte-indexed memories. *)
Definition upd (m : Z -> byte) (i : Z) (b : byte) : Z -> byte :=
  fun j => if j =? i then b else m j.

(** The bytes [m a, m (a+1), ..., m (a+n-1)]. *)
Definition view (m : Z -> byte) (a n : Z) : bytes :=
  map (fun k => m (a + Z.of_nat k)) (seq 0 (Z.to_nat n)).
