(** Property theorems C98, continued: rings in interleavings of any length on
    Windows.  See PropertiesThreadExact.v. *)
From Coq Require Import Lia.
From Verif Require Import Base Spec ErrorModel RingSpec RingModel RingTheorems RingClaims SizeModel OsModel MapModel MapSpec ApiModel ApiSpec RingMapModel RingMapSpec OsProofs MemRingModel
  ProcModel ProcSpec WinModel WinSpec WinMapModel WinMapSpec WinSpace WinThings WinHist WinMapClaims WinProcModel WinProcSpec WinProcProofs WinProcClaims
  WinThreadModel WinThreadSpec WinThreadInv WinThreadStep WinThreadAlone WinThreadClaims WinThreadClaims2
  PropertiesSize PropertiesMap PropertiesRingMap PropertiesWin PropertiesWinMap PropertiesWinProc
  RingExactSpec ProcExactSpec PropertiesWinThread WinThreadExact.

Theorem C98_ring_exact_iff : forall t s0 s tid hint h k s3, good_target t -> wtreached t s0 s -> is_usize t hint -> wt_pool s tid = None ->
  Forall (wev_ok t) h -> Forall (fun e => wstarts e <> Some tid) h ->
  wtstep t (WEGo tid) (snd (wtrun t h (snd (wtstep t (WERing tid false hint) s)))) = (WTRing (Ret k), s3) ->
  exists cap, is_ceil (t_alloc t) hint cap /\
    (exact_positions t cap <-> forall h' xs s4, Forall (wev_ok t) h' -> wtrun t h' s3 = (xs, s4) ->
     qx_answers (t_checks t) 0 {| q_data := []; q_free := zeros cap |} (wcalls_on k (wecalls h')) (wanswers_on k (wecalls h') (weresults h' xs))).
Proof. intros t s0 s tid hint h k s3 Ht R. exact (wring_thread_iff t Ht s0 s tid hint h k s3 (wtreached_ok t Ht s0 s R)). Qed.

Theorem C98_infinite_exact_iff : forall t s0 s tid hint h k s3, good_target t -> wtreached t s0 s -> is_usize t hint -> wt_pool s tid = None ->
  Forall (wev_ok t) h -> Forall (fun e => wstarts e <> Some tid) h ->
  wtstep t (WEGo tid) (snd (wtrun t h (snd (wtstep t (WERing tid true hint) s)))) = (WTRing (Ret k), s3) ->
  exists cap, is_ceil (t_alloc t) hint cap /\
    (exact_positions t cap <-> forall h' xs s4, Forall (wev_ok t) h' -> Forall (irop_ok t cap) (wicalls_on k (wecalls h')) -> wtrun t h' s3 = (xs, s4) ->
     lqx_answers (t_checks t) 0 {| lq_tape := zeros cap; lq_len := 0 |} (wicalls_on k (wecalls h')) (wanswers_on k (wecalls h') (weresults h' xs))).
Proof. intros t s0 s tid hint h k s3 Ht R. exact (winf_thread_iff t Ht s0 s tid hint h k s3 (wtreached_ok t Ht s0 s R)). Qed.

(** The interleaving of [C98_ring_case]: ring 2 is used while a thread makes
    another and a third drops it. *)
Example C98_exact_case : exact_positions (twin true) 131072 /\
  (wcalls_on 2 (wecalls exw_use), wanswers_on 2 (wecalls exw_use) (weresults exw_use exw_used)) =
  ([RWriteAll [1; 2; 3]; RRead 2; RWrite [4]; RRead 5; RWrite [5]; RRead 1],
   [Ret OUnit; Ret (OBytes [1; 2]); Ret (OCount 1); Ret (OBytes [3; 4]); Ret (OCount 1); Ret (OBytes [5])]).
Proof. split; [right; split; reflexivity|exact C98_ring_case]. Qed.
Print Assumptions C98_ring_exact_iff.
Print Assumptions C98_infinite_exact_iff.
