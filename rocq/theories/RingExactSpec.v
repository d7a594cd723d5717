(** What a [Ring] and an [InfiniteRing] do over every history whatever its
    length: the queue of RingSpec.v plus the count of bytes that entered since
    the last clear, which a build with overflow checks cannot take to 2^64. *)
From Coq Require Import Znumtheory.
From Verif Require Import Base ErrorModel RingSpec.

(** Bytes that enter the queue in a call. *)
Definition q_enters (q : queue) (o : rop) : Z :=
  match o with
  | RWrite b | RWriteAll b => Z.min (zlen b) (zlen (q_free q))
  | RPut b => zlen b
  | RFeed n => Z.min n (zlen (q_free q))
  | _ => 0
  end.

(** A call panics when it must, or when checks are on and the count would
    reach 2^64. *)
Definition qx_panics (checks : bool) (c : Z) (q : queue) (o : rop) : Prop :=
  q_panics q o \/ (checks = true /\ 2 ^ 64 <= c + q_enters q o).

Definition qx_count (c : Z) (q : queue) (o : rop) : Z :=
  match o with RClear => 0 | _ => c + q_enters q o end.

Inductive qx_run (checks : bool) : Z -> queue -> list rop -> option (queue * list rout) -> Prop :=
| qx_nil c q : qx_run checks c q [] (Some (q, []))
| qx_panic c q o os : qx_panics checks c q o -> qx_run checks c q (o :: os) None
| qx_ok c q o os q' x q'' xs :
    ~ qx_panics checks c q o -> q_step q o q' x ->
    qx_run checks (qx_count c q o) q' os (Some (q'', xs)) ->
    qx_run checks c q (o :: os) (Some (q'', x :: xs))
| qx_later c q o os q' x :
    ~ qx_panics checks c q o -> q_step q o q' x ->
    qx_run checks (qx_count c q o) q' os None -> qx_run checks c q (o :: os) None.

(** The same for the lossy queue, which has no clear. *)
Definition lq_enters (q : lqueue) (o : irop) : Z :=
  match o with
  | IWrite b | IWriteAll b => Z.min (zlen b) (zlen (lq_tape q))
  | IFeed n => Z.min n (zlen (lq_tape q))
  | _ => 0
  end.

Definition lqx_panics (checks : bool) (c : Z) (q : lqueue) (o : irop) : Prop :=
  lq_panics q o \/ (checks = true /\ 2 ^ 64 <= c + lq_enters q o).

Inductive lqx_run (checks : bool) : Z -> lqueue -> list irop -> option (lqueue * list rout) -> Prop :=
| lqx_nil c q : lqx_run checks c q [] (Some (q, []))
| lqx_panic c q o os : lqx_panics checks c q o -> lqx_run checks c q (o :: os) None
| lqx_ok c q o os q' x q'' xs :
    ~ lqx_panics checks c q o -> lq_step q o q' x ->
    lqx_run checks (c + lq_enters q o) q' os (Some (q'', xs)) ->
    lqx_run checks c q (o :: os) (Some (q'', x :: xs))
| lqx_later c q o os q' x :
    ~ lqx_panics checks c q o -> lq_step q o q' x ->
    lqx_run checks (c + lq_enters q o) q' os None -> lqx_run checks c q (o :: os) None.

(** Targets and capacities for which this is so: the capacity divides the
    word (powers of two), or the counter has the width of the word and cannot
    wrap. *)
Definition exact_positions (t : target) (cap : Z) : Prop :=
  (cap | 2 ^ t_bits t) \/ (t_bits t = 64 /\ t_checks t = true).
