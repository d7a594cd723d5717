(** Property theorems C103, continued: rings in interleavings of any length on
    macOS.  See PropertiesThreadExact.v. *)
From Coq Require Import Lia.
From Verif Require Import Base Spec ErrorModel RingSpec RingModel RingTheorems RingClaims OsModel OthersModel MapModel MapSpec ApiModel ApiSpec
  RingMapModel RingMapSpec OsProofs MemRingModel MachModel ProcModel ProcSpec ProcProofs ProcClaims MachProcModel ThreadModel ThreadSpec ThreadInv
  ThreadClaims ThreadClaims2 ThreadClaims3 MachThreadModel MachThreadSpec MachThreadInv MachThreadClaims MachThreadClaims2
  PropertiesSize PropertiesMap PropertiesRingMap PropertiesProc PropertiesThread
  RingExactSpec ProcExactSpec PropertiesMachThread MachThreadExact.

Theorem C103_ring_exact_iff : forall t s0 tid hint clock h s2 k s3, posix_target t -> mtreached t s0 ->
  mev_ok t s0 (ERing tid false hint clock) -> busy s0 tid = false ->
  mtpath t (snd (mtstep t (ERing tid false hint clock) s0)) h s2 -> Forall (fun e => starts e <> Some tid) h ->
  mtstep t (EGo tid) s2 = (TRing (Ret k), s3) ->
  exists cap, is_ceil (t_alloc t) hint cap /\
    (exact_positions t cap <-> forall h' xs s4, mtpath t s3 h' s4 -> mtrun t h' s3 = (xs, s4) ->
     qx_answers (t_checks t) 0 {| q_data := []; q_free := zeros cap |} (calls_on k (pcalls h')) (answers_on k (pcalls h') (presults xs))).
Proof. intros t s0 tid hint clock h s2 k s3 Ht R. exact (mring_thread_iff t Ht s0 tid hint clock h s2 k s3 (mtreached_ok t Ht s0 R)). Qed.

Theorem C103_infinite_exact_iff : forall t s0 tid hint clock h s2 k s3, posix_target t -> mtreached t s0 ->
  mev_ok t s0 (ERing tid true hint clock) -> busy s0 tid = false ->
  mtpath t (snd (mtstep t (ERing tid true hint clock) s0)) h s2 -> Forall (fun e => starts e <> Some tid) h ->
  mtstep t (EGo tid) s2 = (TRing (Ret k), s3) ->
  exists cap, is_ceil (t_alloc t) hint cap /\
    (exact_positions t cap <-> forall h' xs s4, mtpath t s3 h' s4 -> Forall (irop_ok t cap) (icalls_on k (pcalls h')) -> mtrun t h' s3 = (xs, s4) ->
     lqx_answers (t_checks t) 0 {| lq_tape := zeros cap; lq_len := 0 |} (icalls_on k (pcalls h')) (answers_on k (pcalls h') (presults xs))).
Proof. intros t s0 tid hint clock h s2 k s3 Ht R. exact (minf_thread_iff t Ht s0 tid hint clock h s2 k s3 (mtreached_ok t Ht s0 R)). Qed.

(** The interleaving of [C103_ring_case]. *)
Example C103_exact_case :
  let q := [Grant 262144; Grant 0; Grant 2819; Grant 0; Grant 0; Grant 6] in
  let s0 := ex_mat 0 q in let h := removelast (skipn 1 ex_mboth) in
  let s2 := snd (mtrun (t64 true) h (snd (mtstep (t64 true) (ERing 1 false 100 epoch) s0))) in
  let s3 := snd (mtstep (t64 true) (EGo 1) s2) in
  exists cap, is_ceil (t_alloc (t64 true)) 100 cap /\ exact_positions (t64 true) cap /\
    qx_answers true 0 {| q_data := []; q_free := zeros cap |} (calls_on 0 (pcalls ex_muse))
      (answers_on 0 (pcalls ex_muse) (presults (fst (mtrun (t64 true) ex_muse s3)))).
Proof.
  destruct C103_ring_case as (R & EO & N0 & F & H & G & H' & _ & _ & _). cbv zeta.
  destruct (C103_ring_exact_iff (t64 true) _ 1 100 epoch _ _ 0 _ (t64_posix true) R
    EO N0 H F (eq_trans (surjective_pairing _) (f_equal (fun x => (x, _)) G))) as (cap & IC & K).
  exists cap. split; [exact IC|]. assert (EX : exact_positions (t64 true) cap) by (right; split; reflexivity). split; [exact EX|exact (proj1 K EX _ _ _ H' (surjective_pairing _))].
Qed.
Print Assumptions C103_ring_exact_iff.
Print Assumptions C103_infinite_exact_iff.
