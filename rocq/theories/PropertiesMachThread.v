(** Property theorems C103: what happens between the kernel calls of one call
    on macOS and iOS.

    [mtreached t s]: [s] is the state after any interleaving of any number of
    threads, each of which may be in the middle of a call that makes a map or
    a ring, and of other processes; from any well-formed kernel state, against
    any sequence of kernel answers.  [mtpath t s h s']: the events [h] lead
    from [s] to [s']. *)
From Coq Require Import Lia.
From Verif Require Import Base Spec ErrorModel RingSpec RingModel RingTheorems RingClaims OsModel OthersModel MapModel MapSpec ApiModel ApiSpec
  RingMapModel RingMapSpec OsProofs MemRingModel MachModel ProcModel ProcSpec ProcProofs ProcClaims MachProcModel ThreadModel ThreadSpec ThreadInv
  ThreadClaims ThreadClaims2 ThreadClaims3 MachThreadModel MachThreadSpec MachThreadInv MachThreadClaims MachThreadClaims2
  PropertiesSize PropertiesMap PropertiesRingMap PropertiesProc PropertiesThread.

(** ** A concrete interleaving: thread 1 makes a ring, thread 2 maps file 7,
    another process writes to the file meanwhile. *)
Definition ex_mboth : list event :=
  [ERing 1 false 100 epoch; EOpen 2 true mapmut_with_options 7; EGo 1; EGo 2; EGo 1; EGo 2; ECall (PMap (COther (OWrite 7 5 [200] false)));
   EGo 1; EGo 2; EGo 2; EGo 2; EGo 1].
Definition ex_mboth_answers : list answer := [Grant 131072; Grant 3; Grant 0; Grant 0; Grant 2563; Grant 65536; Grant 0].
Definition ex_midle (q : list answer) : msys := midle (ex_world q) (fun _ => None).
Definition ex_mat (n : nat) (q : list answer) : msys := snd (mtrun (t64 true) (firstn n ex_mboth) (ex_midle (ex_mboth_answers ++ q))).

(** Used in examples only: with overflow checks, the events of
    PropertiesThread.v are possible in every state. *)
Lemma malways_path t h : t_checks t = true -> forall s, Forall (always_ok t) h -> mtpath t s h (snd (mtrun t h s)).
Proof.
  intros C. induction h as [|e h IH]; intros s F; [constructor|]. apply Forall_cons_iff in F as [E F]. cbn [mtrun].
  pose proof (IH (snd (mtstep t e s)) F) as K. assert (EO : mev_ok t s e).
  { split; [|destruct e; auto]. destruct e; cbn in *; try tauto. destruct E as (A & B & D). split; [exact A|]. split; [exact B|]. intros fd i pd -> _. contradiction D. }
  destruct (mtstep t e s) as [x s1] eqn:Es. cbn [snd] in K. destruct (mtrun t h s1) as [xs s2] eqn:Er. cbn [snd] in *.
  apply mtp_cons; [exact EO|]. rewrite Es. exact K.
Qed.
Lemma mpath_reached t h : forall s s', mtreached t s -> mtpath t s h s' -> mtreached t s'.
Proof.
  induction h as [|e h IH]; intros s s' R H; inversion H; subst; [exact R|].
  match goal with A : mev_ok _ _ _, B : mtpath _ _ _ _ |- _ => exact (IH _ _ (mtr_step _ _ _ R A) B) end.
Qed.
Lemma ex_mboth_ok : Forall (always_ok (t64 true)) ex_mboth.
Proof. events_ok. Qed.
Lemma ex_midle_reached q : mtreached (t64 true) (ex_midle q).
Proof. apply mtr_start, ex_wf. Qed.
Lemma ex_mat_reached n q : mtreached (t64 true) (ex_mat n q).
Proof. eapply mpath_reached; [apply ex_midle_reached|apply malways_path; [reflexivity|apply forall_firstn, ex_mboth_ok]]. Qed.

(** The stages of a call, run without interruption, are the call that the
    other theorems are about: same answer, same state. *)
Theorem C103_uninterrupted : forall t tid c e s, busy s tid = false -> start_of tid c = Some e ->
  exists n s', malone t n tid e s = (as_tresult (fst (mstep t c {| mp_p := ms_p s; mp_ports := ms_ports s |})), s') /\
    {| mp_p := ms_p s'; mp_ports := ms_ports s' |} = snd (mstep t c {| mp_p := ms_p s; mp_ports := ms_ports s |}) /\
    busy s' tid = false /\ forall i, i <> tid -> ms_ring s' i = ms_ring s i /\ ts_pool (ms_t s') i = ts_pool (ms_t s) i.
Proof. exact muninterrupted. Qed.
Example C103_uninterrupted_case :
  let s := ex_mat 10 [Grant 262144; Grant 0; Grant 2819; Grant 0] in let m := {| mp_p := ms_p s; mp_ports := ms_ports s |} in
  busy s 3 = false /\ busy s 1 = true /\ busy s 2 = true /\
  fst (malone (t64 true) 6 3 (EOpen 3 false opt_new 7) s) = TMap (Ret (SFile (Some 0) 65536)) /\
  fst (mstep (t64 true) (PMap (COpen false opt_new 7)) m) = ProcModel.AMap (Ret (SFile (Some 0) 65536)) /\
  fst (malone (t64 true) 6 3 (ERing 3 true 100 epoch) (ex_mat 12 [Grant 262144; Grant 0; Grant 2819; Grant 0])) = TRing (Ret 1).
Proof. vm_compute. auto 10. Qed.
Print Assumptions C103_uninterrupted.

(** A call is over after a fixed number of its own system calls, whatever the
    others do and however often they come in between. *)
Theorem C103_ends : forall t s tid h, mtreached t s -> Forall (fun e => starts e <> Some tid) h ->
  (msteps_left s tid <= own_steps tid h)%nat -> busy (snd (mtrun t h s)) tid = false.
Proof. intros t s tid h R. exact (mends t h s tid (reached_one t s R)). Qed.
Example C103_ends_case :
  let s := ex_mat 2 [] in let h := skipn 2 ex_mboth ++ [EGo 2; EGo 2; EGo 1] in
  mtreached (t64 true) s /\ busy s 1 = true /\ busy s 2 = true /\ msteps_left s 1 = 5%nat /\ msteps_left s 2 = 6%nat /\
  (msteps_left s 1 <= own_steps 1 h)%nat /\ (msteps_left s 2 <= own_steps 2 h)%nat /\
  busy (snd (mtrun (t64 true) h s)) 1 = false /\ busy (snd (mtrun (t64 true) h s)) 2 = false.
Proof. cbv zeta. split; [apply ex_mat_reached|]. vm_compute. repeat split; repeat constructor. Qed.
Print Assumptions C103_ends.

(** Calls in progress do not touch each other's memory, nor that of the maps
    and rings there are. *)
Theorem C103_apart : forall t s x y a, posix_target t -> mtreached t s -> x <> y -> moccupies s x a -> moccupies s y a -> False.
Proof. intros t s x y a Ht R. exact (mok_apart t Ht s x y a (mtreached_ok t Ht s R)). Qed.
Theorem C103_mapped : forall t s x a, posix_target t -> mtreached t s -> moccupies s x a -> w_vm (pc_w (ms_p s)) (a / t_page t) <> None.
Proof. intros t s x a Ht R. exact (mok_mapped t Ht s x a (mtreached_ok t Ht s R)). Qed.
Theorem C103_ring_kept : forall t s h s' k r, posix_target t -> mtreached t s -> mtpath t s h s' ->
  Forall (fun e => ~ acts_for e (HoldRing k)) h -> pc_ring (ms_p s) k = Some r ->
  pc_ring (ms_p s') k = Some r /\ forall a, ring_addr r a -> load (E:=error) t (pc_w (ms_p s')) a = load t (pc_w (ms_p s)) a.
Proof. intros t s h s' k r Ht R. exact (mbetween_ring t Ht h s s' k r (mtreached_ok t Ht s R)). Qed.
Example C103_apart_case :
  let s := ex_mat 9 [] in
  mtreached (t64 true) s /\ moccupies s (HoldCall 1) 131072 /\ moccupies s (HoldCall 1) 139263 /\
  moccupies (ex_mat 11 []) (HoldMap 0) 65536 /\ moccupies (ex_mat 11 []) (HoldCall 1) 139263 /\ moccupies (ex_mat 12 []) (HoldRing 0) 139263.
Proof.
  cbv zeta. split; [apply ex_mat_reached|].
  split; [eexists; split; [vm_compute; reflexivity|vm_compute; intuition discriminate]|].
  split; [eexists; split; [vm_compute; reflexivity|vm_compute; intuition discriminate]|].
  split; [eexists; split; [vm_compute; reflexivity|vm_compute; intuition discriminate]|].
  split; [eexists; split; [vm_compute; reflexivity|vm_compute; intuition discriminate]|].
  eexists; split; [vm_compute; reflexivity|vm_compute; intuition discriminate].
Qed.
Print Assumptions C103_apart.
Print Assumptions C103_mapped.
Print Assumptions C103_ring_kept.

(** A ring whose allocation is interrupted at any of its kernel calls answers
    like a queue that was empty when it was made, in every interleaving of its
    calls with what others do.  ([_partial]: the positions must not wrap
    around, as in C01; on 64-bit targets that takes 2^64 bytes.) *)
Theorem C103_ring_partial : forall t s0 tid hint clock h s2 k s3 h' xs s4, posix_target t -> mtreached t s0 ->
  mev_ok t s0 (ERing tid false hint clock) -> busy s0 tid = false ->
  mtpath t (snd (mtstep t (ERing tid false hint clock) s0)) h s2 -> Forall (fun e => starts e <> Some tid) h ->
  mtstep t (EGo tid) s2 = (TRing (Ret k), s3) -> mtpath t s3 h' s4 -> mtrun t h' s3 = (xs, s4) ->
  exists cap, is_ceil (t_alloc t) hint cap /\
    (history_ok t 0 cap (calls_on k (pcalls h')) ->
     q_answers {| q_data := []; q_free := zeros cap |} (calls_on k (pcalls h')) (answers_on k (pcalls h') (presults xs))).
Proof.
  intros t s0 tid hint clock h s2 k s3 h' xs s4 Ht R. exact (mring_thread t Ht s0 tid hint clock h s2 k s3 h' xs s4 (mtreached_ok t Ht s0 R)).
Qed.
Lemma mpath_calls t h : forall s s', mtpath t s h s' -> Forall (pcall_ok t) (pcalls h).
Proof.
  induction h as [|e h IH]; intros s s' H; [constructor|]. inversion H; subst. cbn [pcalls]. apply Forall_app. split; [|eauto].
  destruct e; cbn; try constructor; [|constructor]. match goal with A : mev_ok _ _ _ |- _ => exact (proj1 (proj1 A)) end.
Qed.
Theorem C103_ring_64bit : forall t s0 tid hint clock h s2 k s3 h' xs s4, posix_target t -> t_bits t = 64 -> mtreached t s0 ->
  mev_ok t s0 (ERing tid false hint clock) -> busy s0 tid = false ->
  mtpath t (snd (mtstep t (ERing tid false hint clock) s0)) h s2 -> Forall (fun e => starts e <> Some tid) h ->
  mtstep t (EGo tid) s2 = (TRing (Ret k), s3) -> mtpath t s3 h' s4 -> mtrun t h' s3 = (xs, s4) ->
  exists cap, is_ceil (t_alloc t) hint cap /\
    (rops_weight cap (calls_on k (pcalls h')) < 2 ^ 64 ->
     q_answers {| q_data := []; q_free := zeros cap |} (calls_on k (pcalls h')) (answers_on k (pcalls h') (presults xs))).
Proof.
  intros t s0 tid hint clock h s2 k s3 h' xs s4 Ht H64 R EO N0 H F G H' Er.
  destruct (mring_thread t Ht s0 tid hint clock h s2 k s3 h' xs s4 (mtreached_ok t Ht s0 R) EO N0 H F G H' Er) as (cap & IC & K).
  destruct EO as [Hh _]. cbn [ev_ok] in Hh. exists cap. split; [exact IC|]. intros Hw. apply K.
  apply history_ok_sum; [destruct IC as (_ & ? & _), Hh; lia|lia|exact (calls_ok k _ t (mpath_calls t _ _ _ H'))|]. apply pos_ok_64; [exact H64|lia].
Qed.
Theorem C103_infinite_partial : forall t s0 tid hint clock h s2 k s3 h' xs s4, posix_target t -> mtreached t s0 ->
  mev_ok t s0 (ERing tid true hint clock) -> busy s0 tid = false ->
  mtpath t (snd (mtstep t (ERing tid true hint clock) s0)) h s2 -> Forall (fun e => starts e <> Some tid) h ->
  mtstep t (EGo tid) s2 = (TRing (Ret k), s3) -> mtpath t s3 h' s4 -> mtrun t h' s3 = (xs, s4) ->
  exists cap, is_ceil (t_alloc t) hint cap /\
    (ihistory_ok t 0 cap (icalls_on k (pcalls h')) ->
     lq_answers {| lq_tape := zeros cap; lq_len := 0 |} (icalls_on k (pcalls h')) (answers_on k (pcalls h') (presults xs))).
Proof.
  intros t s0 tid hint clock h s2 k s3 h' xs s4 Ht R. exact (minf_thread t Ht s0 tid hint clock h s2 k s3 h' xs s4 (mtreached_ok t Ht s0 R)).
Qed.
Definition ex_muse : list event :=
  [ECall (PCall 0 (RWriteAll [1; 2; 3])); ERing 1 true 5000 epoch; EGo 1; EGo 1; ECall (PCall 0 (RRead 2)); EGo 1; EOpen 2 false opt_new 7;
   ECall (PMap (CDrop 0)); EGo 1; EGo 2; ECall (PCall 0 (RWrite [4])); ECall (PICall 1 (IWrite [7; 8])); ECall (PCall 0 (RRead 5)); ECall (PICall 1 (IRead 4))].
Example C103_ring_case :
  let q := [Grant 262144; Grant 0; Grant 2819; Grant 0; Grant 0; Grant 6] in
  let s0 := ex_mat 0 q in let h := removelast (skipn 1 ex_mboth) in
  let s2 := snd (mtrun (t64 true) h (snd (mtstep (t64 true) (ERing 1 false 100 epoch) s0))) in
  let s3 := snd (mtstep (t64 true) (EGo 1) s2) in
  mtreached (t64 true) s0 /\ mev_ok (t64 true) s0 (ERing 1 false 100 epoch) /\ busy s0 1 = false /\ Forall (fun e => starts e <> Some 1) h /\
  mtpath (t64 true) (snd (mtstep (t64 true) (ERing 1 false 100 epoch) s0)) h s2 /\
  fst (mtstep (t64 true) (EGo 1) s2) = TRing (Ret 0) /\
  mtpath (t64 true) s3 ex_muse (snd (mtrun (t64 true) ex_muse s3)) /\
  calls_on 0 (pcalls ex_muse) = [RWriteAll [1; 2; 3]; RRead 2; RWrite [4]; RRead 5] /\
  answers_on 0 (pcalls ex_muse) (presults (fst (mtrun (t64 true) ex_muse s3))) = [Ret OUnit; Ret (OBytes [1; 2]); Ret (OCount 1); Ret (OBytes [3; 4])] /\
  answers_on 1 (pcalls ex_muse) (presults (fst (mtrun (t64 true) ex_muse s3))) = [Ret (OCount 2); Ret (OBytes [7; 8])].
Proof.
  cbv zeta. split; [apply ex_mat_reached|]. split; [split; [vm_compute; intuition discriminate|left; reflexivity]|]. split; [vm_compute; reflexivity|].
  split; [repeat (apply Forall_cons; [discriminate|]); apply Forall_nil|].
  split; [apply malways_path; [reflexivity|events_ok]|]. split; [vm_compute; reflexivity|]. split; [apply malways_path; [reflexivity|events_ok]|]. vm_compute. auto.
Qed.
Print Assumptions C103_ring_partial.
Print Assumptions C103_ring_64bit.
Print Assumptions C103_infinite_partial.

(** Whatever happens between the system calls of [map_if] and [open_if], rings
    in the making included: if the call answers, then with a map (or none) as
    its options ask for a file of the length that [fstat] found. *)
Theorem C103_decided : forall t s tid mut own o fd f h s2 y s3, posix_target t -> mtreached t s ->
  ts_pool (ms_t s) tid = Some (MStat mut own o fd) -> w_fd (pc_w (ms_p s)) fd = Some f ->
  mtpath t (snd (mtstep t (EGo tid) s)) h s2 -> Forall (fun e => starts e <> Some tid) h ->
  mtstep t (EGo tid) s2 = (TMap (Ret y), s3) ->
  let L := final_len (op_truncate o) (op_resize o) (as_usize t (o_size (w_obj (pc_w (ms_p s)) (fd_obj f)))) in
  (out_of_file (op_len o) (op_offset o) L /\ y = (if own then SFile None fd else SNone) /\ ms_p s3 = ms_p s2) \/
  (~ out_of_file (op_len o) (op_offset o) L /\ exists k l, y = (if own then SFile (Some k) fd else SMap k) /\
     a_live (pc_a (ms_p s2)) k = None /\ a_live (pc_a (ms_p s3)) k = Some l /\ l_obj l = fd_obj f /\
     right_len (op_len o) (op_offset o) L (m_len (l_map l)) /\ l_off l = op_offset o /\ l_prot l = op_protect o /\ l_mut l = mut /\
     w_obj (pc_w (ms_p s3)) = w_obj (pc_w (ms_p s2)) /\
     forall i, 0 <= i < m_len (l_map l) -> op_offset o + i < o_size (w_obj (pc_w (ms_p s3)) (fd_obj f)) ->
       map_get t (l_map l) i (pc_w (ms_p s3)) = (Ret (o_data (w_obj (pc_w (ms_p s3)) (fd_obj f)) (op_offset o + i)), pc_w (ms_p s3))).
Proof.
  intros t s tid mut own o fd f h s2 y s3 Ht R Hp. refine (mmap_thread t Ht s tid mut own o fd f h s2 y s3 (mtreached_ok t Ht s R) _ Hp).
  destruct (reached_one t s R tid) as [N|N]; [exact N|congruence].
Qed.
(** The file is cut and written, and a ring made, between the [fstat] and the
    [mmap] of thread 2. *)
Definition ex_masked : msys := snd (mtrun (t64 true) [ERing 1 false 100 epoch; EGo 1; EOpen 2 true mapmut_with_options 7; EGo 2]
  (ex_midle [Grant 131072; Grant 3; Grant 0; Grant 0; Grant 2563; Grant 0; Grant 65536])).
Definition ex_mmeanwhile : list event :=
  [EGo 1; EGo 1; ECall (PMap (COther (OWrite 7 5 [200] true))); EGo 1; EGo 2; ECall (PMap (COther (OCut 7 4097))); EGo 2].
Example C103_decided_case :
  let s := ex_masked in let s1 := snd (mtstep (t64 true) (EGo 2) s) in let h := ex_mmeanwhile in
  let s2 := snd (mtrun (t64 true) h s1) in let s3 := snd (mtstep (t64 true) (EGo 2) s2) in
  mtreached (t64 true) s /\ ts_pool (ms_t s) 2 = Some (MStat true true mapmut_with_options 3) /\
  mtpath (t64 true) s1 h s2 /\ Forall (fun e => starts e <> Some 2) h /\ pc_ring (ms_p s2) 0 <> None /\
  fst (mtstep (t64 true) (EGo 2) s2) = TMap (Ret (SFile (Some 0) 3)) /\
  option_map l_map (a_live (pc_a (ms_p s3)) 0) = Some {| m_ptr := 65536; m_len := 10000 |} /\
  fst (map_get (t64 true) {| m_ptr := 65536; m_len := 10000 |} 5 (pc_w (ms_p s3))) = Ret 200 /\
  fst (map_get (t64 true) {| m_ptr := 65536; m_len := 10000 |} 4096 (pc_w (ms_p s3))) = Ret 80.
Proof.
  cbv zeta. split; [unfold ex_masked; eapply mpath_reached; [apply ex_midle_reached|apply malways_path; [reflexivity|events_ok]]|].
  split; [vm_compute; reflexivity|]. split; [apply malways_path; [reflexivity|events_ok]|].
  split; [repeat (apply Forall_cons; [discriminate|]); apply Forall_nil|]. vm_compute. repeat split; discriminate.
Qed.
Print Assumptions C103_decided.
