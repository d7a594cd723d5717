(** Small specifications, written without reference to the models. *)
From Verif Require Import Base.

(** [r] is the least multiple of [u] that is at least [x]. *)
Definition is_ceil (u x r : Z) : Prop :=
  (u | r) /\ x <= r /\ forall r', (u | r') -> x <= r' -> r <= r'.

(** [r] is the greatest multiple of [u] that is at most [x]. *)
Definition is_floor (u x r : Z) : Prop :=
  (u | r) /\ r <= x /\ forall r', (u | r') -> r' <= x -> r' <= r.
