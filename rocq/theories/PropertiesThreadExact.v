(** Property theorems C92, continued: rings in interleavings of any length.

    The history of the calls on the ring is not bounded.  [exact_positions]:
    the capacity divides the number of positions, or positions have 64 bits and
    overflow checks are on.  [qx_answers] (ProcExactSpec.v): every answer is the
    one that a queue of the capacity gives, except that with overflow checks the
    call that would make the number of bytes ever written reach [2 ^ 64] panics
    and nothing is claimed after it.  For every other capacity some interleaving
    gets a different answer. *)
From Coq Require Import Lia.
From Verif Require Import Base Spec ErrorModel RingSpec RingModel RingTheorems RingClaims OsModel OthersModel MapModel MapSpec ApiModel ApiSpec
  RingMapModel RingMapSpec OsProofs MemRingModel ProcModel ProcSpec ProcProofs ProcClaims ThreadModel ThreadSpec ThreadInv
  ThreadClaims ThreadClaims2 ThreadClaims3 PropertiesSize PropertiesMap PropertiesRingMap PropertiesProc
  RingExactSpec ProcExactSpec PropertiesThread ThreadExact.

Theorem C92_ring_exact_iff : forall t plat s0 tid hint clock h s2 k s3, posix_target t -> treached t plat s0 ->
  is_usize t hint -> ts_pool s0 tid = None ->
  tpath t plat (snd (tstep t plat (ERing tid false hint clock) s0)) h s2 -> Forall (fun e => starts e <> Some tid) h ->
  tstep t plat (EGo tid) s2 = (TRing (Ret k), s3) ->
  exists cap, is_ceil (t_alloc t) hint cap /\
    (exact_positions t cap <-> forall h' xs s4, tpath t plat s3 h' s4 -> trun t plat h' s3 = (xs, s4) ->
     qx_answers (t_checks t) 0 {| q_data := []; q_free := zeros cap |} (calls_on k (pcalls h')) (answers_on k (pcalls h') (presults xs))).
Proof. intros t plat s0 tid hint clock h s2 k s3 Ht R. exact (ring_thread_iff t plat Ht s0 tid hint clock h s2 k s3 (treached_ok t plat Ht s0 R)). Qed.

Theorem C92_infinite_exact_iff : forall t plat s0 tid hint clock h s2 k s3, posix_target t -> treached t plat s0 ->
  is_usize t hint -> ts_pool s0 tid = None ->
  tpath t plat (snd (tstep t plat (ERing tid true hint clock) s0)) h s2 -> Forall (fun e => starts e <> Some tid) h ->
  tstep t plat (EGo tid) s2 = (TRing (Ret k), s3) ->
  exists cap, is_ceil (t_alloc t) hint cap /\
    (exact_positions t cap <-> forall h' xs s4, tpath t plat s3 h' s4 -> Forall (irop_ok t cap) (icalls_on k (pcalls h')) -> trun t plat h' s3 = (xs, s4) ->
     lqx_answers (t_checks t) 0 {| lq_tape := zeros cap; lq_len := 0 |} (icalls_on k (pcalls h')) (answers_on k (pcalls h') (presults xs))).
Proof. intros t plat s0 tid hint clock h s2 k s3 Ht R. exact (inf_thread_iff t plat Ht s0 tid hint clock h s2 k s3 (treached_ok t plat Ht s0 R)). Qed.

(** The interleaving of [C92_ring_case]; then both kinds of capacity. *)
Example C92_exact_case :
  let q := [Grant 5; Grant 0; Grant 262144; Grant 0; Grant 0; Grant 0; Grant 6] in
  let s0 := ex_at 0 q in let h := removelast (skipn 1 ex_both) in
  let s2 := snd (trun (t64 true) Anonymous h (snd (tstep (t64 true) Anonymous (ERing 1 false 100 epoch) s0))) in
  let s3 := snd (tstep (t64 true) Anonymous (EGo 1) s2) in
  exists cap, is_ceil (t_alloc (t64 true)) 100 cap /\ exact_positions (t64 true) cap /\
    qx_answers true 0 {| q_data := []; q_free := zeros cap |} (calls_on 0 (pcalls ex_use))
      (answers_on 0 (pcalls ex_use) (presults (fst (trun (t64 true) Anonymous ex_use s3)))).
Proof.
  destruct C92_ring_case as (R & F & H & G & H' & _ & _ & _). cbv zeta.
  destruct (C92_ring_exact_iff (t64 true) Anonymous _ 1 100 epoch _ _ 0 _ (t64_posix true) R
    ltac:(vm_compute; intuition discriminate) eq_refl H F (eq_trans (surjective_pairing _) (f_equal (fun x => (x, _)) G))) as (cap & IC & K).
  exists cap. split; [exact IC|]. assert (EX : exact_positions (t64 true) cap) by (right; split; reflexivity). split; [exact EX|exact (proj1 K EX _ _ _ H' (surjective_pairing _))].
Qed.
Example C92_positions_case : exact_positions (t64 false) 8192 /\ ~ exact_positions (t64 false) 12288.
Proof.
  split; [left; exists (2 ^ 51); reflexivity|]. intros [[x E]|[_ E]]; [|discriminate E]. change (2 ^ t_bits (t64 false)) with (18446744073709551616) in E. lia.
Qed.
Print Assumptions C92_ring_exact_iff.
Print Assumptions C92_infinite_exact_iff.
