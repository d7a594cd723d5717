(** What std's provided methods and adaptive programs should do with a queue. *)
From Verif Require Import Base ErrorModel RingSpec RingExactSpec StdModel.

(** [ps] are the pieces of [l] between the delimiters: none contains [d]; the
    last one has no delimiter behind it unless [l] ends with one. *)
Definition pieces (d : byte) (l : bytes) (ps : list bytes) : Prop :=
  Forall (fun p => ~ In d p) ps /\
  (l = flat_map (fun p => p ++ [d]) ps \/
   exists ps' z, ps = ps' ++ [z] /\ z <> [] /\ l = flat_map (fun p => p ++ [d]) ps' ++ z).

(** A program whose every call, whatever was answered before, is [ok]. *)
Fixpoint asks {O R} (ok : O -> Prop) (c : client O R) : Prop :=
  match c with Done _ => True | Call o k => ok o /\ forall x, asks ok (k x) end.

(** A program served by the queue (see [qx_run]); [None]: a call panicked. *)
Inductive serves {R} (checks : bool) : Z -> queue -> client rop R -> option (queue * R) -> Prop :=
| serve_done n q x : serves checks n q (Done x) (Some (q, x))
| serve_panic n q o k : qx_panics checks n q o -> serves checks n q (Call o k) None
| serve_call n q o k q' x res :
    ~ qx_panics checks n q o -> q_step q o q' x -> serves checks (qx_count n q o) q' (k x) res ->
    serves checks n q (Call o k) res.

Inductive lserves {R} (checks : bool) : Z -> lqueue -> client irop R -> option (lqueue * R) -> Prop :=
| lserve_done n q x : lserves checks n q (Done x) (Some (q, x))
| lserve_panic n q o k : lqx_panics checks n q o -> lserves checks n q (Call o k) None
| lserve_call n q o k q' x res :
    ~ lqx_panics checks n q o -> lq_step q o q' x -> lserves checks (n + lq_enters q o) q' (k x) res ->
    lserves checks n q (Call o k) res.
