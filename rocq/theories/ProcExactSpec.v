(** The answers of queues to calls of which some may panic, over histories of
    any length: [q_answers] and [lq_answers] of ProcSpec.v with the count of
    entered bytes of RingExactSpec.v.  After the panic of a build with overflow
    checks at 2^64 entered bytes nothing is claimed. *)
From Verif Require Import Base ErrorModel RingSpec RingExactSpec.

Inductive qx_answers (checks : bool) : Z -> queue -> list rop -> list (out io_error rout) -> Prop :=
| qxa_nil c q : qx_answers checks c q [] []
| qxa_ok c q o os q' x xs : ~ qx_panics checks c q o -> q_step q o q' x -> qx_answers checks (qx_count c q o) q' os xs ->
    qx_answers checks c q (o :: os) (Ret x :: xs)
| qxa_panic c q o os xs : q_panics q o -> qx_answers checks c q os xs -> qx_answers checks c q (o :: os) (Panic :: xs)
| qxa_over c q o os xs : checks = true -> 2 ^ 64 <= c + q_enters q o -> qx_answers checks c q (o :: os) (Panic :: xs).

Inductive lqx_answers (checks : bool) : Z -> lqueue -> list irop -> list (out io_error rout) -> Prop :=
| lxa_nil c q : lqx_answers checks c q [] []
| lxa_ok c q o os q' x xs : ~ lqx_panics checks c q o -> lq_step q o q' x -> lqx_answers checks (c + lq_enters q o) q' os xs ->
    lqx_answers checks c q (o :: os) (Ret x :: xs)
| lxa_panic c q o os xs : lq_panics q o -> lqx_answers checks c q os xs -> lqx_answers checks c q (o :: os) (Panic :: xs)
| lxa_over c q o os xs : checks = true -> 2 ^ 64 <= c + lq_enters q o -> lqx_answers checks c q (o :: os) (Panic :: xs).
