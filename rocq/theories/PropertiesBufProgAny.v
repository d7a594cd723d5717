(** Property theorems C100: buffered readers and writers in programs, over
    inner objects of any behaviour and for histories of any length.

    As in PropertiesBufProg.v the ring calls of src/io/buffer.rs are executed
    by a process whose rings are memory of the kernel.  Nothing is assumed of
    the inner reader or writer but that the counts it reports are values of
    [usize]. *)
From Coq Require Import Lia.
From Verif Require Import Base Spec ErrorModel RingSpec RingModel RingTheorems RingClaims BufSpec BufModel OsModel MapModel MapSpec ApiModel ApiSpec
  RingMapModel RingMapSpec OsProofs OthersModel MemRingModel ProcModel ProcSpec MachModel MachSpec MachProcModel MachProcSpec
  WinModel WinMapModel WinMapSpec WinProcModel WinProcSpec
  BufWeak BufProgModel BufProgSpec BufProgProofs BufProgClaims BufProgAnySpec BufProgAny
  PropertiesSize PropertiesMap PropertiesRingMap PropertiesProc PropertiesMachProc PropertiesWin PropertiesWinMap PropertiesWinProc PropertiesBufProg.

(** ** POSIX *)
Theorem C100_reader : forall t plat p hint clock k p1 src script os, posix_target t -> preached t plat p -> is_usize t hint ->
  pstep t plat (PRing hint clock) p = (ANew (Ret k), p1) -> Forall (ranswer_ok t) script -> Forall (brop_ok t) os ->
  exists cap, is_ceil (t_alloc t) hint cap /\
    let c := c_rrun t cap 0 {| rs_src := src; rs_script := script; rs_asked := [] |} os in
    (exists res p2, p_exec t plat k p1 c res p2) /\
    forall res p2, p_exec t plat k p1 c res p2 -> reader_outcome_any t cap src script os res (fst (p_own t plat k (RPeek (umax t)) p2)).
Proof. intros t plat p hint clock k p1 src script os Ht. exact (p_reader_any t plat Ht k p hint clock p1 src script os). Qed.
Theorem C100_writer : forall t plat p hint clock k p1 script os, posix_target t -> preached t plat p -> is_usize t hint ->
  pstep t plat (PRing hint clock) p = (ANew (Ret k), p1) -> Forall (wanswer_ok t) script ->
  exists cap, is_ceil (t_alloc t) hint cap /\
    let c := c_wlife t {| ws_log := []; ws_script := script; ws_calls := [] |} false os in
    (exists res p2, p_exec t plat k p1 c res p2) /\
    forall res p2, p_exec t plat k p1 c res p2 -> writer_outcome_any t cap script os res (fst (p_own t plat k (RPeek (umax t)) p2)).
Proof. intros t plat p hint clock k p1 script os Ht. exact (p_writer_any t plat Ht k p hint clock p1 script os). Qed.

(** A reader that says it stored more than it was given room for, one byte when
    it stored three, and more than a caller asked for; and then panics. *)
Definition ex_liar : rsource :=
  {| rs_src := [10; 11]; rs_script := [Lie [1; 2; 3] 1; Lie [4; 5] 9000; Give 1; Lie [] 5; RBoom [6]; Give 5]; rs_asked := [] |}.
Definition ex_liar_reads : list brop := [BFill; BRead 3; BFill; BRead 4095; BExact 2; BRead 4096; BFill; BFill].
Example C100_reader_case :
  preached (t64 true) Anonymous (snd (prun (t64 true) Anonymous [PMap (COpen true mapmut_with_options 7)] (ex_start [Grant 0; Grant 0]))) /\
  Forall (ranswer_ok (t64 true)) (rs_script ex_liar) /\ Forall (brop_ok (t64 true)) ex_liar_reads /\
  let r := p_runs (c_rrun (t64 true) 4096 0 ex_liar ex_liar_reads) ex_busy ex_ring_made in
  p_exec (t64 true) Anonymous 0 ex_ring_made (c_rrun (t64 true) 4096 0 ex_liar ex_liar_reads) (fst r) (snd r) /\
  (match fst r with Some (_, s, d, rs) => Some (d, rs_src s, rs) | None => None end, fst (p_own (t64 true) Anonymous 0 (RPeek (umax (t64 true))) (snd r))) =
  (Some ([1; 4; 5] ++ repeat 0 4093 ++ [1; 10], [], [Ret tt; Ret tt; Ret tt; Ret tt; Ret tt; Ret tt; Panic; Ret tt]), Some (Ret (OBytes [11]))).
Proof.
  split; [apply prun_reached; [apply pr_start, ex_wf|]; repeat constructor; vm_compute; intuition discriminate|].
  split; [repeat constructor; vm_compute; intuition discriminate|]. split; [repeat constructor; vm_compute; intuition discriminate|].
  cbv zeta. split.
  - exact (runs_exec proc pcall (p_other (t64 true) 0) (fun c p => snd (pstep (t64 true) Anonymous c p)) (p_own (t64 true) Anonymous 0)
      (fun w p => ring_len (t64 true) (pc_ring p 0) w) (c_rrun (t64 true) 4096 0 ex_liar ex_liar_reads) ex_busy ex_ring_made ex_busy_ok).
  - vm_compute. reflexivity.
Qed.
(** A writer that claims one byte where it took three, and 9000 where it took
    two; that fails, panics and claims nothing. *)
Definition ex_boaster : list wanswer := [Claim 1; Claim 9000; WFail (IoOs 5); Claim 3; WBoom; Claim 0; Take 2; WFail (IoOs 32)].
Definition ex_boaster_writes : list bwop :=
  [WWrite [1; 2; 3]; WFlush; WWrite [4; 5]; WWriteAll [6; 7]; WFlush; WWrite [8]; WWrite (repeat 7 4096); WWrite [9]].
Definition ex_boaster_sink : wsink := {| ws_log := []; ws_script := ex_boaster; ws_calls := [] |}.
Example C100_writer_case :
  Forall (wanswer_ok (t64 true)) ex_boaster /\
  let r := p_runs (c_wlife (t64 true) ex_boaster_sink false ex_boaster_writes) ex_busy ex_ring_made in
  p_exec (t64 true) Anonymous 0 ex_ring_made (c_wlife (t64 true) ex_boaster_sink false ex_boaster_writes) (fst r) (snd r) /\
  (match fst r with Some (s, d, rs) => Some (d, accepted s, rs) | None => None end, fst (p_own (t64 true) Anonymous 0 (RPeek (umax (t64 true))) (snd r))) =
  (Some ([1; 2; 3; 4; 5; 6; 7; 8; 9], [1; 2; 3; 2; 3; 4; 5; 6; 7; 7; 8; 7; 8],
    [Ret tt; Err (IoOs 5); Ret tt; Ret tt; Panic; Ret tt; Err (IoSimple WriteZero); Ret tt; Ret tt]), Some (Ret (OBytes [9]))).
Proof.
  split; [repeat constructor; vm_compute; intuition discriminate|].
  cbv zeta. split.
  - exact (runs_exec proc pcall (p_other (t64 true) 0) (fun c p => snd (pstep (t64 true) Anonymous c p)) (p_own (t64 true) Anonymous 0)
      (fun w p => ring_len (t64 true) (pc_ring p 0) w) (c_wlife (t64 true) ex_boaster_sink false ex_boaster_writes) ex_busy ex_ring_made ex_busy_ok).
  - vm_compute. reflexivity.
Qed.
Print Assumptions C100_reader.
Print Assumptions C100_writer.

(** ** macOS and iOS *)
Theorem C100_reader_mach : forall t p hint clock k p1 src script os, posix_target t -> mreached t p -> mcall_ok t (PRing hint clock) ->
  mstep t (PRing hint clock) p = (ANew (Ret k), p1) -> Forall (ranswer_ok t) script -> Forall (brop_ok t) os ->
  exists cap, is_ceil (t_alloc t) hint cap /\
    let c := c_rrun t cap 0 {| rs_src := src; rs_script := script; rs_asked := [] |} os in
    (exists res p2, m_exec t k p1 c res p2) /\
    forall res p2, m_exec t k p1 c res p2 -> reader_outcome_any t cap src script os res (fst (m_own t k (RPeek (umax t)) p2)).
Proof. intros t p hint clock k p1 src script os Ht. exact (m_reader_any t Ht k p hint clock p1 src script os). Qed.
Theorem C100_writer_mach : forall t p hint clock k p1 script os, posix_target t -> mreached t p -> mcall_ok t (PRing hint clock) ->
  mstep t (PRing hint clock) p = (ANew (Ret k), p1) -> Forall (wanswer_ok t) script ->
  exists cap, is_ceil (t_alloc t) hint cap /\
    let c := c_wlife t {| ws_log := []; ws_script := script; ws_calls := [] |} false os in
    (exists res p2, m_exec t k p1 c res p2) /\
    forall res p2, m_exec t k p1 c res p2 -> writer_outcome_any t cap script os res (fst (m_own t k (RPeek (umax t)) p2)).
Proof. intros t p hint clock k p1 script os Ht. exact (m_writer_any t Ht k p hint clock p1 script os). Qed.
Example C100_mach_case :
  let p := snd (mrun (t64 true) [PMap (COpen true mapmut_with_options 7)] (ex_mach_start [Grant 0; Grant 0])) in
  mreached (t64 true) p /\ mcall_ok (t64 true) (PRing 100 epoch) /\ fst (mstep (t64 true) (PRing 100 epoch) p) = ANew (Ret 0) /\
  let r := runs mproc pcall (fun c p => snd (mstep (t64 true) c p)) (m_own (t64 true) 0) (fun w p => ring_len (t64 true) (pc_ring (mp_p p) 0) w)
    (c_wlife (t64 true) ex_boaster_sink false ex_boaster_writes) ex_busy (snd (mstep (t64 true) (PRing 100 epoch) p)) in
  (match fst r with Some (s, d, rs) => Some (d, accepted s, length rs) | None => None end,
   fst (m_own (t64 true) 0 (RPeek (umax (t64 true))) (snd r))) =
  (Some ([1; 2; 3; 4; 5; 6; 7; 8; 9], [1; 2; 3; 2; 3; 4; 5; 6; 7; 7; 8; 7; 8], 9%nat), Some (Ret (OBytes [9]))).
Proof.
  cbv zeta. split; [apply mrun_reached; [apply mr_start, ex_wf|]; mcalls_ok|].
  split; [split; [vm_compute; intuition discriminate|left; reflexivity]|]. split; [vm_compute; reflexivity|].
  vm_compute. reflexivity.
Qed.
Print Assumptions C100_reader_mach.
Print Assumptions C100_writer_mach.

(** ** Windows *)
Theorem C100_reader_win : forall t p hint k p1 src script os, good_target t -> wpreached t p -> is_usize t hint ->
  wpstep t (WRing hint) p = (WNew (Ret k), p1) -> Forall (ranswer_ok t) script -> Forall (brop_ok t) os ->
  exists cap, is_ceil (t_alloc t) hint cap /\
    let c := c_rrun t cap 0 {| rs_src := src; rs_script := script; rs_asked := [] |} os in
    (exists res p2, w_exec t k p1 c res p2) /\
    forall res p2, w_exec t k p1 c res p2 -> reader_outcome_any t cap src script os res (fst (w_own t k (RPeek (umax t)) p2)).
Proof. intros t p hint k p1 src script os Ht. exact (w_reader_any t Ht k p hint p1 src script os). Qed.
Theorem C100_writer_win : forall t p hint k p1 script os, good_target t -> wpreached t p -> is_usize t hint ->
  wpstep t (WRing hint) p = (WNew (Ret k), p1) -> Forall (wanswer_ok t) script ->
  exists cap, is_ceil (t_alloc t) hint cap /\
    let c := c_wlife t {| ws_log := []; ws_script := script; ws_calls := [] |} false os in
    (exists res p2, w_exec t k p1 c res p2) /\
    forall res p2, w_exec t k p1 c res p2 -> writer_outcome_any t cap script os res (fst (w_own t k (RPeek (umax t)) p2)).
Proof. intros t p hint k p1 script os Ht. exact (w_writer_any t Ht k p hint p1 script os). Qed.
Example C100_win_case :
  let p := snd (wprun (twin true) exp_before (exp_start [])) in
  wpreached (twin true) p /\ fst (wpstep (twin true) (WRing 70000) p) = WNew (Ret 2) /\
  let r := runs wproc wpcall (fun c p => snd (wpstep (twin true) c p)) (w_own (twin true) 2) (fun w p => ring_len (twin true) (wp_ring p 2) w)
    (c_wlife (twin true) ex_boaster_sink false [WWrite [1; 2; 3]; WFlush; WWrite [4; 5]; WWriteAll [6; 7]; WFlush; WWrite [8]])
    [[]; [WInf 5000]; [WICall 3 (IWrite [7; 8])]] (snd (wpstep (twin true) (WRing 70000) p)) in
  (match fst r with Some (s, d, rs) => Some (d, accepted s, rs) | None => None end,
   fst (w_own (twin true) 2 (RPeek (umax (twin true))) (snd r))) =
  (Some ([1; 2; 3; 4; 5; 6; 7; 8], [1; 2; 3; 2; 3; 4; 5; 6; 7], [Ret tt; Err (IoOs 5); Ret tt; Ret tt; Panic; Ret tt; Ret tt]), Some (Ret (OBytes [7; 8]))).
Proof.
  cbv zeta. split; [apply wprun_reached; [apply wpr_start, exw_fresh|apply exp_before_ok]|]. split; [vm_compute; reflexivity|].
  vm_compute. reflexivity.
Qed.
Print Assumptions C100_reader_win.
Print Assumptions C100_writer_win.
