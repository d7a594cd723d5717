(** C74, C77 and C81 over histories of any length: exactly which rings of a
    program are queues for ever, on POSIX, Windows and macOS. *)
From Coq Require Import Lia Znumtheory.
From Verif Require Import Base Spec ErrorModel RingSpec RingModel RingTheorems RingClaims RingExactSpec OsModel MapModel MapSpec ApiModel ApiSpec
  RingMapModel RingMapSpec OsProofs MemRingModel MachModel MachSpec ProcModel ProcSpec ProcExactSpec ProcExact
  MachProcModel MachProcSpec MachProcExact WinModel WinSpec WinMapModel WinMapSpec WinProcModel WinProcSpec WinProcExact
  PropertiesSize PropertiesMap PropertiesRingMap PropertiesProc PropertiesMachProc PropertiesWin PropertiesWinMap PropertiesWinProc.

(** ** POSIX *)
Theorem C74_ring_exact_iff : forall t plat p hint clock k p1, posix_target t -> preached t plat p -> is_usize t hint ->
  pstep t plat (PRing hint clock) p = (ANew (Ret k), p1) ->
  exists cap, is_ceil (t_alloc t) hint cap /\
    (exact_positions t cap <-> forall h xs p2, Forall (pcall_ok t) h -> prun t plat h p1 = (xs, p2) ->
     qx_answers (t_checks t) 0 {| q_data := []; q_free := zeros cap |} (calls_on k h) (answers_on k h xs)).
Proof. intros t plat p hint clock k p1 Ht. exact (ring_end_iff t plat Ht p hint clock k p1). Qed.
Theorem C74_infinite_exact_iff : forall t plat p hint clock k p1, posix_target t -> preached t plat p -> is_usize t hint ->
  pstep t plat (PInf hint clock) p = (ANew (Ret k), p1) ->
  exists cap, is_ceil (t_alloc t) hint cap /\
    (exact_positions t cap <-> forall h xs p2, Forall (pcall_ok t) h -> Forall (irop_ok t cap) (icalls_on k h) -> prun t plat h p1 = (xs, p2) ->
     lqx_answers (t_checks t) 0 {| lq_tape := zeros cap; lq_len := 0 |} (icalls_on k h) (answers_on k h xs)).
Proof. intros t plat p hint clock k p1 Ht. exact (inf_end_iff t plat Ht p hint clock k p1). Qed.
(** Histories that carry as many bytes as one likes through a ring of one page,
    without overflow checks; a ring of three pages is not safe there. *)
Fixpoint laps (n : nat) : list pcall :=
  match n with O => [] | S n => PCall 0 (RFeed 4096) :: PMap (CGet 0 5) :: PCall 0 (RConsume 4096) :: laps n end.
Lemma laps_ok c n : Forall (pcall_ok (t64 c)) (laps n).
Proof. induction n as [|n IH]; cbn [laps]; [constructor|]. destruct c; repeat (constructor; [vm_compute; intuition discriminate|]); exact IH. Qed.
Lemma laps_weight n : rops_weight 4096 (calls_on 0 (laps n)) = 4096 * Z.of_nat n.
Proof.
  induction n as [|n IH]; [reflexivity|]. change (laps (S n)) with (PCall 0 (RFeed 4096) :: PMap (CGet 0 5) :: PCall 0 (RConsume 4096) :: laps n).
  change (rops_weight 4096 (RFeed 4096 :: RConsume 4096 :: calls_on 0 (laps n)) = 4096 * Z.of_nat (S n)).
  change (rops_weight 4096 (RFeed 4096 :: RConsume 4096 :: calls_on 0 (laps n))) with (4096 + (0 + rops_weight 4096 (calls_on 0 (laps n)))). lia.
Qed.
Example C74_exact_case : forall n,
  let p := snd (prun (t64 false) Anonymous [PMap (COpen true mapmut_with_options 7)] (ex_start [Grant 0; Grant 0])) in
  preached (t64 false) Anonymous p /\ fst (pstep (t64 false) Anonymous (PRing 100 epoch) p) = ANew (Ret 0) /\
  fst (pstep (t64 false) Anonymous (PInf 100 epoch) p) = ANew (Ret 0) /\
  exact_positions (t64 false) 4096 /\ ~ exact_positions (t64 false) 12288 /\ exact_positions (t64 true) 12288 /\
  Forall (pcall_ok (t64 false)) (laps n) /\ rops_weight 4096 (calls_on 0 (laps n)) = 4096 * Z.of_nat n.
Proof.
  intros n. cbv zeta. split; [apply prun_reached; [apply pr_start, ex_wf|]; pcalls_ok|]. split; [vm_compute; reflexivity|]. split; [vm_compute; reflexivity|].
  split; [left; exists (2 ^ 52); reflexivity|].
  split; [intros [D|[_ D]]; [apply Zdivide_mod in D; vm_compute in D; discriminate D|discriminate D]|].
  split; [right; split; reflexivity|]. split; [apply laps_ok|apply laps_weight].
Qed.
(** Both sides: this program's ring is a queue for ever, and with three pages
    it is not. *)
Example C74_exact_case2 : let p := fresh (ring_world []) in
  fst (pstep (t64 false) Anonymous (PRing 100 epoch) p) = ANew (Ret 0) /\ fst (pstep (t64 false) Anonymous (PRing 9000 epoch) p) = ANew (Ret 0) /\
  (forall p1, pstep (t64 false) Anonymous (PRing 100 epoch) p = (ANew (Ret 0), p1) ->
     forall h xs p2, Forall (pcall_ok (t64 false)) h -> prun (t64 false) Anonymous h p1 = (xs, p2) ->
     qx_answers false 0 {| q_data := []; q_free := zeros 4096 |} (calls_on 0 h) (answers_on 0 h xs)) /\
  (forall p1, pstep (t64 false) Anonymous (PRing 9000 epoch) p = (ANew (Ret 0), p1) ->
     ~ forall h xs p2, Forall (pcall_ok (t64 false)) h -> prun (t64 false) Anonymous h p1 = (xs, p2) ->
     qx_answers false 0 {| q_data := []; q_free := zeros 12288 |} (calls_on 0 h) (answers_on 0 h xs)).
Proof.
  assert (U : forall hint, 0 <= hint < 2 ^ 64 -> is_usize (t64 false) hint) by (intros hint H; exact H).
  split; [vm_compute; reflexivity|]. split; [vm_compute; reflexivity|]. split; intros p1 E.
  - destruct (C74_ring_exact_iff _ _ _ _ _ _ _ (t64_posix false) (pr_start _ _ _ (ex_wf _)) (U 100 ltac:(lia)) E) as (cap & IC & H).
    assert (cap = 4096) as -> by (apply (ceil_unique 4096 100); [exact IC|]; split; [exists 1; reflexivity|]; split; [lia|]; intros r [q ->]; lia).
    apply H. left. exists (2 ^ 52). reflexivity.
  - destruct (C74_ring_exact_iff _ _ _ _ _ _ _ (t64_posix false) (pr_start _ _ _ (ex_wf _)) (U 9000 ltac:(lia)) E) as (cap & IC & H).
    assert (cap = 12288) as -> by (apply (ceil_unique 4096 9000); [exact IC|]; split; [exists 3; reflexivity|]; split; [lia|]; intros r [q ->]; lia).
    intros A. apply H in A as [D|[_ D]]; [apply Zdivide_mod in D; vm_compute in D; discriminate D|discriminate D].
Qed.
Print Assumptions C74_ring_exact_iff.
Print Assumptions C74_infinite_exact_iff.

(** ** Windows *)
Theorem C77_ring_exact_iff : forall t p hint k p1, good_target t -> wpreached t p -> is_usize t hint ->
  wpstep t (WRing hint) p = (WNew (Ret k), p1) ->
  exists cap, is_ceil (t_alloc t) hint cap /\
    (exact_positions t cap <-> forall h xs p2, Forall (wpcall_ok t) h -> wprun t h p1 = (xs, p2) ->
     qx_answers (t_checks t) 0 {| q_data := []; q_free := zeros cap |} (wcalls_on k h) (wanswers_on k h xs)).
Proof. intros t p hint k p1 Ht. exact (wring_end_iff t Ht p hint k p1). Qed.
Theorem C77_infinite_exact_iff : forall t p hint k p1, good_target t -> wpreached t p -> is_usize t hint ->
  wpstep t (WInf hint) p = (WNew (Ret k), p1) ->
  exists cap, is_ceil (t_alloc t) hint cap /\
    (exact_positions t cap <-> forall h xs p2, Forall (wpcall_ok t) h -> Forall (irop_ok t cap) (wicalls_on k h) -> wprun t h p1 = (xs, p2) ->
     lqx_answers (t_checks t) 0 {| lq_tape := zeros cap; lq_len := 0 |} (wicalls_on k h) (wanswers_on k h xs)).
Proof. intros t p hint k p1 Ht. exact (winf_end_iff t Ht p hint k p1). Qed.
Example C77_exact_case :
  let p := snd (wprun (twin false) exp_before (exp_start [])) in
  wpreached (twin false) p /\ fst (wpstep (twin false) (WRing 70000) p) = WNew (Ret 2) /\
  fst (wpstep (twin false) (WInf 70000) p) = WNew (Ret 2) /\
  Forall (wpcall_ok (twin false)) exp_after /\ exact_positions (twin false) 131072 /\ ~ exact_positions (twin false) (3 * 65536).
Proof.
  cbv zeta. split; [apply wprun_reached; [apply wpr_start, exw_fresh|apply exp_before_ok]|].
  split; [vm_compute; reflexivity|]. split; [vm_compute; reflexivity|]. split; [apply exp_after_ok|].
  split; [left; exists (2 ^ 47); reflexivity|].
  intros [D|[_ D]]; [apply Zdivide_mod in D; vm_compute in D; discriminate D|discriminate D].
Qed.
Print Assumptions C77_ring_exact_iff.
Print Assumptions C77_infinite_exact_iff.

(** ** macOS *)
Theorem C81_ring_exact_iff : forall t p hint clock k p1, posix_target t -> mreached t p -> mcall_ok t (PRing hint clock) ->
  mstep t (PRing hint clock) p = (ANew (Ret k), p1) ->
  exists cap, is_ceil (t_alloc t) hint cap /\
    (exact_positions t cap <-> forall h xs p2, Forall (mcall_ok t) h -> mrun t h p1 = (xs, p2) ->
     qx_answers (t_checks t) 0 {| q_data := []; q_free := zeros cap |} (calls_on k h) (answers_on k h xs)).
Proof. intros t p hint clock k p1 Ht. exact (mring_end_iff t Ht p hint clock k p1). Qed.
Theorem C81_infinite_exact_iff : forall t p hint clock k p1, posix_target t -> mreached t p -> mcall_ok t (PInf hint clock) ->
  mstep t (PInf hint clock) p = (ANew (Ret k), p1) ->
  exists cap, is_ceil (t_alloc t) hint cap /\
    (exact_positions t cap <-> forall h xs p2, Forall (mcall_ok t) h -> Forall (irop_ok t cap) (icalls_on k h) -> mrun t h p1 = (xs, p2) ->
     lqx_answers (t_checks t) 0 {| lq_tape := zeros cap; lq_len := 0 |} (icalls_on k h) (answers_on k h xs)).
Proof. intros t p hint clock k p1 Ht. exact (minf_end_iff t Ht p hint clock k p1). Qed.
Example C81_exact_case : forall n,
  let p := snd (mrun (t64 false) [PMap (COpen true mapmut_with_options 7)] (ex_mach_start [Grant 0; Grant 0])) in
  mreached (t64 false) p /\ mcall_ok (t64 false) (PRing 100 epoch) /\ fst (mstep (t64 false) (PRing 100 epoch) p) = ANew (Ret 0) /\
  fst (mstep (t64 false) (PInf 100 epoch) p) = ANew (Ret 0) /\
  Forall (mcall_ok (t64 false)) (laps n) /\ rops_weight 4096 (calls_on 0 (laps n)) = 4096 * Z.of_nat n.
Proof.
  intros n. cbv zeta. split; [apply mrun_reached; [apply mr_start, ex_wf|]; mcalls_ok|].
  split; [split; [vm_compute; intuition discriminate|right; vm_compute; discriminate]|].
  split; [vm_compute; reflexivity|]. split; [vm_compute; reflexivity|].
  split; [|apply laps_weight]. induction n as [|n IH]; cbn [laps]; [constructor|].
  repeat (apply Forall_cons; [split; [vm_compute; intuition discriminate|exact Logic.I]|]). exact IH.
Qed.
Print Assumptions C81_ring_exact_iff.
Print Assumptions C81_infinite_exact_iff.
