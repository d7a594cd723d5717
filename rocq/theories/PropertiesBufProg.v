(** Property theorems C95: buffered readers and writers in programs.

    The calls that the functions of src/io/buffer.rs make on their ring are
    executed by a process whose rings are memory of the kernel; between any two
    of them the rest of the program (the inner reader or writer, other threads,
    other processes) may make any calls on maps, files and other rings. *)
From Coq Require Import Lia Permutation.
From Verif Require Import Base Spec ErrorModel RingSpec RingModel RingTheorems RingClaims BufSpec BufModel OsModel MapModel MapSpec ApiModel ApiSpec
  RingMapModel RingMapSpec OsProofs OthersModel MemRingModel ProcModel ProcSpec MachModel MachSpec MachProcModel MachProcSpec
  WinModel WinMapModel WinMapSpec WinProcModel WinProcSpec
  BufProgModel BufProgSpec BufProgProofs BufProgClaims
  PropertiesSize PropertiesMap PropertiesRingMap PropertiesProc PropertiesMachProc PropertiesWin PropertiesWinMap PropertiesWinProc.

(** ** C95, POSIX *)
Theorem C95_reader_partial : forall t plat p hint clock k p1 src script os, posix_target t -> preached t plat p -> is_usize t hint ->
  pstep t plat (PRing hint clock) p = (ANew (Ret k), p1) -> Forall honest script -> Forall (brop_ok t) os ->
  exists cap, is_ceil (t_alloc t) hint cap /\
    (pos_ok t cap (zlen src) ->
     let c := c_rrun t cap 0 {| rs_src := src; rs_script := script; rs_asked := [] |} os in
     (exists res p2, p_exec t plat k p1 c res p2) /\
     forall res p2, p_exec t plat k p1 c res p2 -> reader_outcome t cap src script os res (fst (p_own t plat k (RPeek (umax t)) p2))).
Proof. intros t plat p hint clock k p1 src script os Ht. exact (p_reader t plat Ht k p hint clock p1 src script os). Qed.
Theorem C95_writer_partial : forall t plat p hint clock k p1 script os, posix_target t -> preached t plat p -> is_usize t hint ->
  pstep t plat (PRing hint clock) p = (ANew (Ret k), p1) -> Forall whonest script ->
  exists cap, is_ceil (t_alloc t) hint cap /\
    (pos_ok t cap (bwops_weight os) ->
     let c := c_wlife t {| ws_log := []; ws_script := script; ws_calls := [] |} false os in
     (exists res p2, p_exec t plat k p1 c res p2) /\
     forall res p2, p_exec t plat k p1 c res p2 -> writer_outcome t cap script os res (fst (p_own t plat k (RPeek (umax t)) p2))).
Proof. intros t plat p hint clock k p1 script os Ht. exact (p_writer t plat Ht k p hint clock p1 script os). Qed.

(** On 64-bit targets, up to 2^64 bytes. *)
Theorem C95_reader_64bit : forall t plat p hint clock k p1 src script os, posix_target t -> t_bits t = 64 -> preached t plat p -> is_usize t hint ->
  pstep t plat (PRing hint clock) p = (ANew (Ret k), p1) -> Forall honest script -> Forall (brop_ok t) os -> zlen src < 2 ^ 64 ->
  exists cap, is_ceil (t_alloc t) hint cap /\
    let c := c_rrun t cap 0 {| rs_src := src; rs_script := script; rs_asked := [] |} os in
    (exists res p2, p_exec t plat k p1 c res p2) /\
    forall res p2, p_exec t plat k p1 c res p2 -> reader_outcome t cap src script os res (fst (p_own t plat k (RPeek (umax t)) p2)).
Proof.
  intros t plat p hint clock k p1 src script os Ht H64 R Hh E Fh Fo Hs.
  destruct (p_reader t plat Ht k p hint clock p1 src script os R Hh E Fh Fo) as (cap & IC & K). exists cap. split; [exact IC|].
  apply K, pos_ok_64; assumption.
Qed.
Theorem C95_writer_64bit : forall t plat p hint clock k p1 script os, posix_target t -> t_bits t = 64 -> preached t plat p -> is_usize t hint ->
  pstep t plat (PRing hint clock) p = (ANew (Ret k), p1) -> Forall whonest script -> bwops_weight os < 2 ^ 64 ->
  exists cap, is_ceil (t_alloc t) hint cap /\
    let c := c_wlife t {| ws_log := []; ws_script := script; ws_calls := [] |} false os in
    (exists res p2, p_exec t plat k p1 c res p2) /\
    forall res p2, p_exec t plat k p1 c res p2 -> writer_outcome t cap script os res (fst (p_own t plat k (RPeek (umax t)) p2)).
Proof.
  intros t plat p hint clock k p1 script os Ht H64 R Hh E Fh Hs.
  destruct (p_writer t plat Ht k p hint clock p1 script os R Hh E Fh) as (cap & IC & K). exists cap. split; [exact IC|].
  apply K, pos_ok_64; assumption.
Qed.

(** The rest of the program uses a map, a second ring and meets another process
    in the middle of the calls of the reader. *)
Definition ex_busy : list (list pcall) :=
  [[PMap (CSet 0 0 9)]; []; [PInf 5000 epoch; PICall 1 (IWrite [7; 8])]; [PMap (COther (OWrite 7 0 [1; 2] true))];
   [PICall 1 (IRead 1)]; [PMap (CDrop 0)]; []; [PICall 1 (IWrite [9])]].
Lemma ex_busy_ok : Forall (Forall (p_other (t64 true) 0)) ex_busy.
Proof. repeat constructor; vm_compute; intuition discriminate. Qed.
Definition ex_ring_made : proc :=
  snd (pstep (t64 true) Anonymous (PRing 100 epoch) (snd (prun (t64 true) Anonymous [PMap (COpen true mapmut_with_options 7)] (ex_start [Grant 0; Grant 0])))).
Definition p_runs {A} (c : code A) (es : list (list pcall)) (p : proc) :=
  runs proc pcall (fun c p => snd (pstep (t64 true) Anonymous c p)) (p_own (t64 true) Anonymous 0) (fun w p => ring_len (t64 true) (pc_ring p 0) w) c es p.
Definition ex_reads : list brop := [BFill; BRead 3; BUntil 15; BConsume 1; BExact 2].
Definition ex_source : rsource :=
  {| rs_src := [10; 11; 12; 13; 14; 15; 16; 17; 18; 19; 20]; rs_script := [Give 4; RFail [5] (IoSimple Interrupted); Give 6]; rs_asked := [] |}.
Example C95_reader_case_runs :
  let c := c_rrun (t64 true) 4096 0 ex_source ex_reads in let r := p_runs c ex_busy ex_ring_made in
  p_exec (t64 true) Anonymous 0 ex_ring_made c (fst r) (snd r).
Proof.
  exact (runs_exec proc pcall (p_other (t64 true) 0) (fun c p => snd (pstep (t64 true) Anonymous c p)) (p_own (t64 true) Anonymous 0)
    (fun w p => ring_len (t64 true) (pc_ring p 0) w) (c_rrun (t64 true) 4096 0 ex_source ex_reads) ex_busy ex_ring_made ex_busy_ok).
Qed.
Example C95_reader_case :
  let r := p_runs (c_rrun (t64 true) 4096 0 ex_source ex_reads) ex_busy ex_ring_made in
  (match fst r with Some (_, s, d, rs) => Some (d, rs_src s, length rs) | None => None end, fst (p_own (t64 true) Anonymous 0 (RPeek (umax (t64 true))) (snd r))) =
  (Some ([10; 11; 12; 13; 14; 15; 16; 17; 18], [20], 5%nat), Some (Ret (OBytes [19]))).
Proof. vm_compute. reflexivity. Qed.
Definition ex_writes : list bwop := [WWrite [1; 2; 3]; WWriteAll (repeat 7 4095); WFlush; WWrite [4; 5]].
Definition ex_sink : wsink := {| ws_log := []; ws_script := [WFail (IoSimple Interrupted); Take 2; Take 9; Take 5000; Take 0; Take 1; WFail (IoOs 32)]; ws_calls := [] |}.
Example C95_writer_case_runs :
  let c := c_wlife (t64 true) ex_sink false ex_writes in let r := p_runs c ex_busy ex_ring_made in
  p_exec (t64 true) Anonymous 0 ex_ring_made c (fst r) (snd r).
Proof.
  exact (runs_exec proc pcall (p_other (t64 true) 0) (fun c p => snd (pstep (t64 true) Anonymous c p)) (p_own (t64 true) Anonymous 0)
    (fun w p => ring_len (t64 true) (pc_ring p 0) w) (c_wlife (t64 true) ex_sink false ex_writes) ex_busy ex_ring_made ex_busy_ok).
Qed.
Example C95_writer_case :
  let r := p_runs (c_wlife (t64 true) ex_sink false ex_writes) ex_busy ex_ring_made in
  (match fst r with Some (s, d, rs) => Some (d, accepted s, length rs) | None => None end, fst (p_own (t64 true) Anonymous 0 (RPeek (umax (t64 true))) (snd r))) =
  (Some ([1; 2; 3] ++ repeat 7 4095 ++ [4; 5], [1; 2; 3] ++ repeat 7 4095 ++ [4], 5%nat), Some (Ret (OBytes [5]))).
Proof. vm_compute. reflexivity. Qed.
Print Assumptions C95_reader_partial.
Print Assumptions C95_writer_partial.
Print Assumptions C95_reader_64bit.
Print Assumptions C95_writer_64bit.

(** ** C95, macOS and iOS *)
Theorem C95_reader_mach_partial : forall t p hint clock k p1 src script os, posix_target t -> mreached t p -> mcall_ok t (PRing hint clock) ->
  mstep t (PRing hint clock) p = (ANew (Ret k), p1) -> Forall honest script -> Forall (brop_ok t) os ->
  exists cap, is_ceil (t_alloc t) hint cap /\
    (pos_ok t cap (zlen src) ->
     let c := c_rrun t cap 0 {| rs_src := src; rs_script := script; rs_asked := [] |} os in
     (exists res p2, m_exec t k p1 c res p2) /\
     forall res p2, m_exec t k p1 c res p2 -> reader_outcome t cap src script os res (fst (m_own t k (RPeek (umax t)) p2))).
Proof. intros t p hint clock k p1 src script os Ht. exact (m_reader t Ht k p hint clock p1 src script os). Qed.
Theorem C95_writer_mach_partial : forall t p hint clock k p1 script os, posix_target t -> mreached t p -> mcall_ok t (PRing hint clock) ->
  mstep t (PRing hint clock) p = (ANew (Ret k), p1) -> Forall whonest script ->
  exists cap, is_ceil (t_alloc t) hint cap /\
    (pos_ok t cap (bwops_weight os) ->
     let c := c_wlife t {| ws_log := []; ws_script := script; ws_calls := [] |} false os in
     (exists res p2, m_exec t k p1 c res p2) /\
     forall res p2, m_exec t k p1 c res p2 -> writer_outcome t cap script os res (fst (m_own t k (RPeek (umax t)) p2))).
Proof. intros t p hint clock k p1 script os Ht. exact (m_writer t Ht k p hint clock p1 script os). Qed.
Example C95_mach_case :
  let p := snd (mrun (t64 true) [PMap (COpen true mapmut_with_options 7)] (ex_mach_start [Grant 0; Grant 0])) in
  mreached (t64 true) p /\ mcall_ok (t64 true) (PRing 100 epoch) /\
  fst (mstep (t64 true) (PRing 100 epoch) p) = ANew (Ret 0) /\ pos_ok (t64 true) 4096 (zlen (rs_src ex_source)) /\
  Forall honest (rs_script ex_source) /\ Forall (brop_ok (t64 true)) ex_reads /\
  let r := runs mproc pcall (fun c p => snd (mstep (t64 true) c p)) (m_own (t64 true) 0) (fun w p => ring_len (t64 true) (pc_ring (mp_p p) 0) w)
    (c_rrun (t64 true) 4096 0 ex_source ex_reads) ex_busy (snd (mstep (t64 true) (PRing 100 epoch) p)) in
  (match fst r with Some (_, s, d, rs) => Some (d, rs_src s, length rs) | None => None end,
   fst (m_own (t64 true) 0 (RPeek (umax (t64 true))) (snd r))) =
  (Some ([10; 11; 12; 13; 14; 15; 16; 17; 18], [20], 5%nat), Some (Ret (OBytes [19]))).
Proof.
  cbv zeta. split; [apply mrun_reached; [apply mr_start, ex_wf|]; mcalls_ok|].
  split; [split; [vm_compute; intuition discriminate|left; reflexivity]|]. split; [vm_compute; reflexivity|].
  split; [apply pos_ok_64; [reflexivity|vm_compute; reflexivity]|].
  split; [repeat constructor|]. split; [repeat constructor; vm_compute; intuition discriminate|].
  vm_compute. reflexivity.
Qed.
Print Assumptions C95_reader_mach_partial.
Print Assumptions C95_writer_mach_partial.

(** ** C95, Windows *)
Theorem C95_reader_win_partial : forall t p hint k p1 src script os, good_target t -> wpreached t p -> is_usize t hint ->
  wpstep t (WRing hint) p = (WNew (Ret k), p1) -> Forall honest script -> Forall (brop_ok t) os ->
  exists cap, is_ceil (t_alloc t) hint cap /\
    (pos_ok t cap (zlen src) ->
     let c := c_rrun t cap 0 {| rs_src := src; rs_script := script; rs_asked := [] |} os in
     (exists res p2, w_exec t k p1 c res p2) /\
     forall res p2, w_exec t k p1 c res p2 -> reader_outcome t cap src script os res (fst (w_own t k (RPeek (umax t)) p2))).
Proof. intros t p hint k p1 src script os Ht. exact (w_reader t Ht k p hint p1 src script os). Qed.
Theorem C95_writer_win_partial : forall t p hint k p1 script os, good_target t -> wpreached t p -> is_usize t hint ->
  wpstep t (WRing hint) p = (WNew (Ret k), p1) -> Forall whonest script ->
  exists cap, is_ceil (t_alloc t) hint cap /\
    (pos_ok t cap (bwops_weight os) ->
     let c := c_wlife t {| ws_log := []; ws_script := script; ws_calls := [] |} false os in
     (exists res p2, w_exec t k p1 c res p2) /\
     forall res p2, w_exec t k p1 c res p2 -> writer_outcome t cap script os res (fst (w_own t k (RPeek (umax t)) p2))).
Proof. intros t p hint k p1 script os Ht. exact (w_writer t Ht k p hint p1 script os). Qed.
Example C95_win_case :
  let p := snd (wprun (twin true) exp_before (exp_start [])) in
  wpreached (twin true) p /\ fst (wpstep (twin true) (WRing 70000) p) = WNew (Ret 2) /\
  let r := runs wproc wpcall (fun c p => snd (wpstep (twin true) c p)) (w_own (twin true) 2) (fun w p => ring_len (twin true) (wp_ring p 2) w)
    (c_rrun (twin true) 131072 0 ex_source ex_reads) [[]; [WInf 5000]; [WICall 3 (IWrite [7; 8])]] (snd (wpstep (twin true) (WRing 70000) p)) in
  (match fst r with Some (_, s, d, rs) => Some (d, rs_src s, length rs) | None => None end,
   fst (w_own (twin true) 2 (RPeek (umax (twin true))) (snd r))) =
  (Some ([10; 11; 12; 13; 14; 15; 16; 17; 18], [20], 5%nat), Some (Ret (OBytes [19]))).
Proof.
  cbv zeta. split; [apply wprun_reached; [apply wpr_start, exw_fresh|apply exp_before_ok]|]. split; [vm_compute; reflexivity|].
  vm_compute. reflexivity.
Qed.
Print Assumptions C95_reader_win_partial.
Print Assumptions C95_writer_win_partial.
