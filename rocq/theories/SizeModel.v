(** Model of [Size] (src/lib.rs:303-463). *)
From Verif Require Import Base.

(** A [Size] is its unit in bytes (src/lib.rs:304); [with_size] stores its
    argument (src/lib.rs:345-347), [page]/[alloc] use the system values
    (src/lib.rs:312-323), [default] is [alloc] (src/lib.rs:459-463). *)
Definition size_page (t : target) : Z := t_page t.
Definition size_alloc (t : target) : Z := t_alloc t.
Definition size_default (t : target) : Z := size_alloc t.

(** src/lib.rs:385-387  [len & !(self.0 - 1)] *)
Definition size_truncate {E} (t : target) (u len : Z) : out E Z :=
  let* m := usub t u 1 in
  Ret (Z.land len (unot t m)).

(** src/lib.rs:365-367  [self.truncate(len + self.0 - 1)] *)
Definition size_round {E} (t : target) (u len : Z) : out E Z :=
  let* a := uadd t len u in
  let* b := usub t a 1 in
  size_truncate t u b.

(** src/lib.rs:403-405  [len & (self.0 - 1)] *)
Definition size_offset {E} (t : target) (u len : Z) : out E Z :=
  let* m := usub t u 1 in
  Ret (Z.land len m).

(** src/lib.rs:421-423  [(count as usize) << self.0.trailing_zeros()] *)
Definition size_size {E} (t : target) (u count : Z) : out E Z :=
  ushl t (as_usize t count) (trailing_zeros t u).

(** src/lib.rs:442-444  [(self.round(len) >> self.0.trailing_zeros()) as u32] *)
Definition size_count {E} (t : target) (u len : Z) : out E Z :=
  let* r := size_round t u len in
  let* s := ushr t r (trailing_zeros t u) in
  Ret (as_u32 s).

(** src/lib.rs:453-456  [(ptr.offset(-(off as isize)), self.round(len + off))].
    The pointer subtraction is exact: [off] is at most the address. *)
Definition size_bounds {E} (t : target) (u ptr len : Z) : out E (Z * Z) :=
  let* off := size_offset t u ptr in
  let* s := uadd t len off in
  let* r := size_round t u s in
  Ret (ptr - off, r).
