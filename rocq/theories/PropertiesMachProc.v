(** Property theorems C81-C83: programs that use maps and rings together on
    macOS and iOS.

    [mreached t p]: [p] is the state after any history of calls on any number
    of maps and rings, from any well-formed kernel state and any port rights,
    against any sequence of kernel answers.  Rings are allocated with the Mach
    calls of src/os/unix/mach.rs. *)
From Coq Require Import Lia.
From Verif Require Import Base Spec ErrorModel RingSpec RingModel RingTheorems RingClaims OsModel MapModel MapSpec ApiModel ApiSpec
  RingMapModel RingMapSpec OsProofs MemRingModel MachModel MachSpec ProcModel ProcSpec ProcProofs ProcClaims ProcPages
  MachProcModel MachProcSpec MachProcProofs MachProcClaims PropertiesSize PropertiesMap PropertiesRingMap PropertiesProc.

(** ** A concrete program: the calls of [ex_mixed] (PropertiesProc.v), with the
    answers of a Mach kernel: each ring takes four calls. *)
Definition ex_mach_answers : list answer :=
  [Grant 3; Grant 0; Grant 65536] ++ mach_grants 131072 0 2563 0 ++ mach_grants 262144 0 2819 0 ++ [Grant 0].
Definition ex_mach_start (rest : list answer) : mproc := mfresh (ex_world (ex_mach_answers ++ rest)) (fun _ => None).
Definition ex_mach_after (c : bool) (rest : list answer) : mproc := snd (mrun (t64 c) ex_mixed (ex_mach_start rest)).

Lemma mrun_reached t h : forall p, mreached t p -> Forall (mcall_ok t) h -> mreached t (snd (mrun t h p)).
Proof.
  induction h as [|c h IH]; cbn [mrun]; intros p R F; [exact R|]. inversion F; subst.
  pose proof (IH _ (mr_step _ _ _ R H1) H2) as K. destruct (mstep t c p) as [x p1]. cbn [snd] in K. destruct (mrun t h p1) as [xs p2]. exact K.
Qed.
Ltac mcalls_ok := repeat (apply Forall_cons; [split; [vm_compute; intuition discriminate|first [exact Logic.I|right; vm_compute; discriminate]]|]); apply Forall_nil.
Lemma ex_mixed_mach_ok c : Forall (mcall_ok (t64 c)) ex_mixed.
Proof. destruct c; mcalls_ok. Qed.
Lemma ex_mach_after_reached c rest : mreached (t64 c) (ex_mach_after c rest).
Proof. apply mrun_reached; [apply mr_start, ex_wf|apply ex_mixed_mach_ok]. Qed.
Lemma mcalls_pcalls t h : Forall (mcall_ok t) h -> Forall (pcall_ok t) h.
Proof. apply Forall_impl. intros c [H _]. exact H. Qed.

(** ** C81: every ring made in any program answers like a queue that was empty
    when it was made. *)
Theorem C81_ring_partial : forall t p hint clock k p1 h xs p2, posix_target t -> mreached t p -> mcall_ok t (PRing hint clock) ->
  mstep t (PRing hint clock) p = (ANew (Ret k), p1) -> Forall (mcall_ok t) h -> mrun t h p1 = (xs, p2) ->
  exists cap, is_ceil (t_alloc t) hint cap /\
    (history_ok t 0 cap (calls_on k h) ->
     q_answers {| q_data := []; q_free := zeros cap |} (calls_on k h) (answers_on k h xs)).
Proof. intros t p hint clock k p1 h xs p2 Ht. exact (mring_end_to_end t Ht p hint clock k p1 h xs p2). Qed.
(** On 64-bit targets, up to 2^64 bytes through the ring. *)
Theorem C81_ring_64bit : forall t p hint clock k p1 h xs p2, posix_target t -> t_bits t = 64 -> mreached t p -> mcall_ok t (PRing hint clock) ->
  mstep t (PRing hint clock) p = (ANew (Ret k), p1) -> Forall (mcall_ok t) h -> mrun t h p1 = (xs, p2) ->
  exists cap, is_ceil (t_alloc t) hint cap /\
    (rops_weight cap (calls_on k h) < 2 ^ 64 ->
     q_answers {| q_data := []; q_free := zeros cap |} (calls_on k h) (answers_on k h xs)).
Proof.
  intros t p hint clock k p1 h xs p2 Ht H64 R Hh E F Er.
  destruct (mring_end_to_end t Ht p hint clock k p1 h xs p2 R Hh E F Er) as (cap & IC & K). exists cap. split; [exact IC|].
  intros Hw. apply K. destruct Hh as [Hh _]. cbn [pcall_ok] in Hh.
  apply history_ok_sum; [destruct IC as (_ & ? & _), Hh; lia|lia|apply calls_ok, mcalls_pcalls, F|]. apply pos_ok_64; [exact H64|lia].
Qed.
Theorem C81_infinite_partial : forall t p hint clock k p1 h xs p2, posix_target t -> mreached t p -> mcall_ok t (PInf hint clock) ->
  mstep t (PInf hint clock) p = (ANew (Ret k), p1) -> Forall (mcall_ok t) h -> mrun t h p1 = (xs, p2) ->
  exists cap, is_ceil (t_alloc t) hint cap /\
    (ihistory_ok t 0 cap (icalls_on k h) ->
     lq_answers {| lq_tape := zeros cap; lq_len := 0 |} (icalls_on k h) (answers_on k h xs)).
Proof. intros t p hint clock k p1 h xs p2 Ht. exact (minf_end_to_end t Ht p hint clock k p1 h xs p2). Qed.
Example C81_case :
  let p := snd (mrun (t64 true) [PMap (COpen true mapmut_with_options 7)] (ex_mach_start [Grant 0; Grant 0])) in
  let h := skipn 2 ex_mixed ++ ex_tail in
  mreached (t64 true) p /\ Forall (mcall_ok (t64 true)) h /\
  fst (mstep (t64 true) (PRing 100 epoch) p) = ANew (Ret 0) /\
  let '(xs, p2) := mrun (t64 true) h (snd (mstep (t64 true) (PRing 100 epoch) p)) in
  calls_on 0 h = [RWriteAll [1; 2; 3]; RRead 2; RPut (repeat 5 4093); RWrite [6; 6; 6; 6; 6]; RRead 3; RPut (repeat 4 5000); RPeek 2] /\
  answers_on 0 h xs = [Ret OUnit; Ret (OBytes [1; 2]); Ret OUnit; Ret (OCount 2); Ret (OBytes [3; 5; 5]); Panic; Ret (OBytes [5; 5])] /\
  answers_on 1 h xs = [Ret (OCount 2); Ret (OBytes [7; 8])] /\
  rops_weight 4096 (calls_on 0 h) < 2 ^ 64.
Proof.
  cbv zeta. split; [|split; [|vm_compute; auto 10]]; [apply mrun_reached; [apply mr_start, ex_wf|]; mcalls_ok|].
  cbn [skipn ex_mixed ex_tail app]. mcalls_ok.
Qed.
Print Assumptions C81_ring_partial.
Print Assumptions C81_ring_64bit.
Print Assumptions C81_infinite_partial.

(** ** C82: rings and maps do not touch each other. *)
Theorem C82_apart_partial : forall t s, posix_target t -> mreached t s -> let p := mp_p s in
  (forall k1 k2 h1 h2 a, pc_ring p k1 = Some h1 -> pc_ring p k2 = Some h2 -> k1 <> k2 -> ring_addr h1 a -> ring_addr h2 a -> False) /\
  (forall k h k' l a, pc_ring p k = Some h -> a_live (pc_a p) k' = Some l -> ring_addr h a -> map_addr l a -> False) /\
  (forall k1 k2 l1 l2 a, a_live (pc_a p) k1 = Some l1 -> a_live (pc_a p) k2 = Some l2 -> k1 <> k2 -> map_addr l1 a -> map_addr l2 a -> False).
Proof. intros t s Ht. exact (mapart t Ht s). Qed.
(** Making a ring, failing to make one, using it and dropping it changes no
    byte the program could read, but those of the ring itself ... *)
Theorem C82_local_partial : forall t p c x p' a, posix_target t -> mreached t p -> mcall_ok t c -> (forall c', c <> PMap c') ->
  mstep t c p = (x, p') ->
  (forall k h, ring_subject c = Some k -> pc_ring (mp_p p) k = Some h -> ~ ring_addr h a) -> load (E:=error) t (pc_w (mp_p p)) a <> Fault ->
  load (E:=error) t (pc_w (mp_p p')) a = load t (pc_w (mp_p p)) a.
Proof. intros t p c x p' a Ht. exact (mring_calls_local t Ht p c x p' a). Qed.
(** ... nor any file, descriptor or map. *)
Theorem C82_files_partial : forall t p c x p' path, posix_target t -> mreached t p -> mcall_ok t c -> (forall c', c <> PMap c') ->
  mstep t c p = (x, p') -> 0 <= path ->
  w_fs (pc_w (mp_p p')) path = w_fs (pc_w (mp_p p)) path /\
  (forall o, w_fs (pc_w (mp_p p)) path = Some o -> w_obj (pc_w (mp_p p')) o = w_obj (pc_w (mp_p p)) o) /\
  (forall fd, w_fd (pc_w (mp_p p')) fd = w_fd (pc_w (mp_p p)) fd) /\ a_live (pc_a (mp_p p')) = a_live (pc_a (mp_p p)).
Proof. intros t p c x p' path Ht. exact (mring_calls_files t Ht p c x p' path). Qed.
(** Calls on a ring return or panic: no load or store of theirs faults. *)
Theorem C82_no_fault_partial : forall t p c r p', posix_target t -> mreached t p -> mcall_ok t c ->
  mstep t c p = (ARing r, p') -> r = Panic \/ exists y, r = Ret y.
Proof. intros t p c r p' Ht. exact (mring_calls_safe t Ht p c r p'). Qed.
(** Any history of calls, none of them on ring [k]. *)
Theorem C82_ring_kept_partial : forall t p h xs p' k s, posix_target t -> mreached t p -> Forall (mcall_ok t) h ->
  Forall (fun c => ring_subject c <> Some k) h -> pc_ring (mp_p p) k = Some s -> mrun t h p = (xs, p') ->
  pc_ring (mp_p p') k = Some s /\ forall a, ring_addr s a -> load (E:=error) t (pc_w (mp_p p')) a = load t (pc_w (mp_p p)) a.
Proof. intros t p h xs p' k s Ht R. exact (mring_kept t Ht h p xs p' k s (mreached_ok t Ht p R)). Qed.
Example C82_case :
  let s := ex_mach_after true [Grant 0; Grant 0] in let p := mp_p s in let h := [PICall 1 (IWrite [1]); PMap (CDrop 0); PDrop 1] in
  mreached (t64 true) s /\ Forall (mcall_ok (t64 true)) h /\
  match pc_ring p 0, pc_ring p 1, a_live (pc_a p) 0 with
  | Some h0, Some h1, Some l => h_alloc h0 = {| ra_ptr := 131072; ra_len := 4096 |} /\ h_alloc h1 = {| ra_ptr := 262144; ra_len := 8192 |} /\
      l_map l = {| m_ptr := 65536; m_len := 10000 |}
  | _, _, _ => False
  end /\
  load (E:=error) (t64 true) (pc_w p) 65536 = Ret 9 /\ load (E:=error) (t64 true) (pc_w p) 131074 = Ret 3 /\
  load (E:=error) (t64 true) (pc_w p) (131074 + 4096) = Ret 3 /\
  load (E:=error) (t64 true) (pc_w (mp_p (snd (mstep (t64 true) (PCall 0 (RWrite [4])) s)))) 65536 = Ret 9 /\
  load (E:=error) (t64 true) (pc_w (mp_p (snd (mrun (t64 true) h s)))) 131074 = Ret 3 /\
  load (E:=error) (t64 true) (pc_w (mp_p (snd (mrun (t64 true) h s)))) 65536 = Fault.
Proof.
  cbv zeta. split; [apply ex_mach_after_reached|]. split; [mcalls_ok|]. vm_compute. auto 10.
Qed.
(** An attempt at a third ring that fails in its last call leaves what the
    program can read as it was. *)
Example C82_case2 :
  let s := ex_mach_after true [Grant 524288; Grant 0; Grant 3075; Refuse 3; Grant 0; Grant 0] in
  let '(x, s') := mstep (t64 true) (PRing 100 epoch) s in
  x = ANew (Err (error_kernel RingSecondary 3)) /\ load (E:=error) (t64 true) (pc_w (mp_p s')) 65536 = Ret 9 /\
  load (E:=error) (t64 true) (pc_w (mp_p s')) 131074 = Ret 3 /\ w_vm (pc_w (mp_p s')) 128 = None.
Proof. vm_compute. auto 10. Qed.
Print Assumptions C82_apart_partial.
Print Assumptions C82_local_partial.
Print Assumptions C82_files_partial.
Print Assumptions C82_no_fault_partial.
Print Assumptions C82_ring_kept_partial.

(** ** C83: nothing stays mapped, but port rights stay.
    [mtidily t w p]: [p] is reached from kernel state [w] by calls in which the
    kernel did not refuse to take pages back, and no map of length 0 was
    dropped. *)
Theorem C83_mapped_partial : forall t w p pg, posix_target t -> mtidily t w p ->
  (w_vm (pc_w (mp_p p)) pg <> None <-> w_vm w pg <> None \/ holds_page t (mp_p p) pg).
Proof. intros t w p pg Ht H. exact (bl_pages t (mapped w) (mp_p p) (mtidily_balanced t Ht w p H) pg). Qed.
Theorem C83_all_dropped_partial : forall t w p, posix_target t -> mtidily t w p ->
  (forall k, pc_ring (mp_p p) k = None) -> (forall k, a_live (pc_a (mp_p p)) k = None) ->
  forall pg, w_vm (pc_w (mp_p p)) pg = None <-> w_vm w pg = None.
Proof.
  intros t w p Ht H Nr Nm pg. pose proof (bl_pages t (mapped w) (mp_p p) (mtidily_balanced t Ht w p H) pg) as B. unfold mapped in B.
  assert (N : ~ holds_page t (mp_p p) pg).
  { intros [(k & h & Hk & _)|(k & l & Hk & _)]; [rewrite Nr in Hk|rewrite Nm in Hk]; discriminate Hk. }
  destruct (w_vm (pc_w (mp_p p)) pg), (w_vm w pg); split; try congruence; intros _; exfalso; destruct B as [B1 B2].
  - destruct (B1 ltac:(discriminate)); [congruence|contradiction].
  - apply B2; [left; discriminate|reflexivity].
Qed.
(** After any history whatsoever the task has one right more for every ring it
    made and for every attempt that failed in its last call: dropping gives
    none back. *)
Theorem C83_ports : forall t p h xs p', posix_target t -> mreached t p -> Forall (mcall_ok t) h -> mrun t h p = (xs, p') ->
  ports_more (length (filter leaks_port xs)) (mp_mach p) (mp_mach p').
Proof. intros t p h xs p' Ht R. exact (run_ports t Ht h p xs p' (mreached_ok t Ht p R)). Qed.

(** Used in the example only. *)
Fixpoint mtidy_run (t : target) (h : list pcall) (p : mproc) : bool :=
  match h with
  | [] => true
  | c :: h =>
    let p' := snd (mstep t c p) in
    forallb grant (w_orc (pc_w (mp_p p))) && match w_orc (pc_w (mp_p p')) with [] => false | _ => true end &&
    match c with PMap (CDrop k) => match a_live (pc_a (mp_p p)) k with Some l => 0 <? m_len (l_map l) | None => true end | _ => true end &&
    mtidy_run t h p'
  end.
Lemma mtidy_run_ok t w h : forall p, mtidily t w p -> Forall (mcall_ok t) h -> mtidy_run t h p = true ->
  mtidily t w (snd (mrun t h p)).
Proof.
  induction h as [|c h IH]; intros p T F E; [exact T|]. apply Forall_cons_iff in F as [F1 F]. cbn [mtidy_run] in E.
  apply andb_true_iff in E as [E E4]. apply andb_true_iff in E as [E E3]. apply andb_true_iff in E as [E1 E2].
  assert (N : ~ refused_last (pc_w (mp_p p)) (pc_w (mp_p (snd (mstep t c p))))).
  { intros [N|(q & e & N)].
    - rewrite N in E2. discriminate E2.
    - rewrite N in E1. rewrite forallb_app in E1. cbn in E1. rewrite andb_false_r in E1. discriminate E1. }
  assert (Td : mtidy t c p).
  { unfold mtidy. destruct (mstep t c p) as [x p']. cbn [snd] in N.
    destruct c as [c|hint clock|hint clock|k c|k c|k]; auto. destruct c; auto. split; [|exact N].
    intros l Hl. rewrite Hl in E3. apply Z.ltb_lt, E3. }
  pose proof (IH _ (mt_step _ _ _ _ T F1 Td) F E4) as K. cbn [mrun]. destruct (mstep t c p) as [x p1]. cbn [snd] in K.
  destruct (mrun t h p1) as [xs p2]. exact K.
Qed.
Example C83_case : forall c,
  let w := ex_world (ex_mach_answers ++ [Grant 0; Grant 0; Grant 0; Grant 0]) in
  let p := snd (mrun (t64 c) ex_mixed (mfresh w (fun _ => None))) in
  let p' := snd (mrun (t64 c) (ex_mixed ++ ex_drops) (mfresh w (fun _ => None))) in
  mtidily (t64 c) w p /\ mtidily (t64 c) w p' /\
  w_vm (pc_w (mp_p p)) 17 <> None /\ w_vm (pc_w (mp_p p)) 33 <> None /\ w_vm (pc_w (mp_p p)) 67 <> None /\ w_vm (pc_w (mp_p p)) 68 = None /\
  pc_ring (mp_p p') 0 = None /\ pc_ring (mp_p p') 1 = None /\ a_live (pc_a (mp_p p')) 0 = None /\
  w_vm (pc_w (mp_p p')) 17 = None /\ w_vm (pc_w (mp_p p')) 33 = None /\ w_vm (pc_w (mp_p p')) 67 = None /\
  length (filter leaks_port (fst (mrun (t64 c) (ex_mixed ++ ex_drops) (mfresh w (fun _ => None))))) = 2%nat /\
  mp_ports p' 2563 <> None /\ mp_ports p' 2819 <> None.
Proof.
  intros c. cbv zeta. split; [|split].
  - apply mtidy_run_ok; [apply mt_start, ex_wf|apply ex_mixed_mach_ok|destruct c; vm_compute; reflexivity].
  - apply mtidy_run_ok; [apply mt_start, ex_wf| |destruct c; vm_compute; reflexivity].
    apply Forall_app. split; [apply ex_mixed_mach_ok|destruct c; mcalls_ok].
  - destruct c; vm_compute; repeat split; try discriminate; reflexivity.
Qed.
(** When the kernel refuses, [Ring::drop] leaves the pages where they are. *)
Theorem C83_refused_leaks : exists t w h, posix_target t /\ wf w /\ Forall (mcall_ok t) h /\
  let p := mp_p (snd (mrun t h (mfresh w (fun _ => None)))) in
  (forall k, pc_ring p k = None) /\ (forall k, a_live (pc_a p) k = None) /\ exists pg, w_vm w pg = None /\ w_vm (pc_w p) pg <> None.
Proof.
  exists (t64 true), (ex_world (mach_grants 65536 0 2563 0 ++ [Refuse 5; Grant 0])), [PRing 100 epoch; PDrop 0].
  split; [apply t64_posix|]. split; [apply ex_wf|]. split; [mcalls_ok|]. split; [|split].
  - intros k. change (put (put (fun _ => None) 0 (Some (HRing (kring_new 65536 4096)))) 0 None k = None).
    unfold put. destruct (k =? 0); reflexivity.
  - intros k. reflexivity.
  - exists 16. split; [reflexivity|]. vm_compute. discriminate.
Qed.
Print Assumptions C83_mapped_partial.
Print Assumptions C83_all_dropped_partial.
Print Assumptions C83_ports.
Print Assumptions C83_refused_leaks.
