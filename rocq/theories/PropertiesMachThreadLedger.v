(** Property theorems C104: what calls in progress leave behind on macOS and
    iOS: no page, no descriptor; every memory entry.

    [mtledger t w ports s L D]: [s] is the state after any interleaving of any
    number of threads and other processes, from the kernel state [w] with the
    memory entries [ports]; [L] are the pages left behind on the way (those
    the kernel was asked to release and refused), [D] the descriptors the
    program has: those open at the start and those handed to it, until it
    closes them. *)
From Coq Require Import Lia.
From Verif Require Import Base Spec ErrorModel RingSpec RingModel OsModel OthersModel MapModel MapSpec ApiModel ApiSpec
  RingMapModel RingMapSpec OsProofs SizeModel MemRingModel MachModel ProcModel ProcSpec ProcLedgerSpec MachProcModel ThreadModel ThreadSpec ThreadLedgerSpec
  MachThreadModel MachThreadSpec MachThreadInv MachThreadLedgerSpec MachThreadLedger
  PropertiesSize PropertiesMap PropertiesRingMap PropertiesProc PropertiesThread PropertiesMachThread.
From Verif Require PropertiesThreadLedger.

(** Every mapped page was mapped at the start, or belongs to a map or a ring,
    or is reserved by a ring being made, or is accounted as left behind; and
    to one of these only. *)
Theorem C104_pages : forall t w ports s L D, posix_target t -> mtledger t w ports s L D -> mpages_accounted t w s L.
Proof. intros t w ports s L D Ht. exact (mledger_pages t Ht w ports s L D). Qed.
(** Every open descriptor is the program's, or that of exactly one call in
    progress. *)
Theorem C104_files : forall t w ports s L D, posix_target t -> mtledger t w ports s L D -> files_accounted (ms_t s) D.
Proof. intros t w ports s L D Ht. exact (mledger_files t Ht w ports s L D). Qed.
(** So, when no call is in progress: *)
Theorem C104_quiet : forall t w ports s L D, posix_target t -> mtledger t w ports s L D -> (forall tid, busy s tid = false) ->
  (forall fd, w_fd (pc_w (ms_p s)) fd <> None <-> D fd) /\
  (forall pg, w_vm (pc_w (ms_p s)) pg <> None <-> w_vm w pg <> None \/ holds_page t (ms_p s) pg \/ L pg).
Proof.
  intros t w ports s L D Ht H N. split.
  - intros fd. destruct (mledger_files t Ht w ports s L D H fd) as (A & _). unfold ms_p. rewrite A. split; [|auto].
    intros [Q|(i & pd & Q & _)]; [exact Q|]. specialize (N i). unfold busy in N. rewrite Q in N. destruct (ms_ring s i); discriminate N.
  - intros pg. destruct (mledger_pages t Ht w ports s L D H pg) as (A & _). rewrite A. split; [|tauto].
    intros [Q|[Q|[(i & pd & Q & _)|Q]]]; auto. specialize (N i). unfold busy in N. rewrite Q in N. discriminate N.
Qed.
(** A memory entry, once made, is there for good: neither the end of the call
    that made it, whether it succeeds or fails, nor dropping the ring, nor
    anything else releases it (os/unix/mach.rs:79-131). *)
Theorem C104_ports_kept : forall t s h s' port m, posix_target t -> mtreached t s -> mtpath t s h s' -> ms_ports s port = Some m -> ms_ports s' port = Some m.
Proof. intros t s h s' port m Ht R Hp. exact (mports_path t Ht h s s' (mtreached_ok t Ht s R) Hp port m). Qed.
(** And none is made but by the one kernel call of a ring being made, which
    makes one. *)
Theorem C104_ports_made : forall t s e port, posix_target t -> mtreached t s -> mev_ok t s e ->
  ms_ports s port = None -> ms_ports (snd (mtstep t e s)) port <> None ->
  exists tid inf len pg, e = EGo tid /\ ms_ring s tid = Some (AEntry inf len pg) /\ ms_ring (snd (mtstep t e s)) tid = Some (MachThreadModel.AMap inf len len pg port).
Proof. intros t s e port Ht R EO. exact (proj2 (mports_step t Ht s e (mtreached_ok t Ht s R) EO) port). Qed.

Lemma mledger_path t w ports h : forall s s' L D, mtledger t w ports s L D -> mtpath t s h s' -> exists L' D', mtledger t w ports s' L' D'.
Proof.
  induction h as [|e h IH]; intros s s' L D H Hp; inversion Hp; subst; [eauto|].
  match goal with A : mev_ok _ _ _, B : mtpath _ _ _ _ |- _ => exact (IH _ _ _ _ (mtl_step _ _ _ _ _ _ _ H A) B) end.
Qed.
Lemma ex_mledger q h : Forall (always_ok (t64 true)) h ->
  exists L D, mtledger (t64 true) (ex_world q) (fun _ => None) (snd (mtrun (t64 true) h (ex_midle q))) L D.
Proof. intros F. eapply mledger_path; [apply mtl_start, ex_wf|apply malways_path; [reflexivity|exact F]]. Qed.

(** Thread 1 makes a ring, thread 2 opens file 7; the map of thread 2 is
    refused, and so are the second half of the ring and its undoing. *)
Definition ex_mfail : list event :=
  [ERing 1 false 100 epoch; EOpen 2 true mapmut_with_options 7; EGo 1; EGo 2; EGo 1; EGo 2; EGo 1; EGo 2; EGo 2; EGo 1; EGo 2; EGo 1; EGo 2].
Definition ex_mfail_answers : list answer :=
  [Grant 131072; Grant 3; Grant 0; Grant 0; Grant 2563; Refuse 12; Refuse 3; Refuse 5; Grant 0].
Lemma ex_mfail_ok : Forall (always_ok (t64 true)) ex_mfail.
Proof. events_ok. Qed.
Definition ex_mfailed (n : nat) : msys := snd (mtrun (t64 true) (firstn n ex_mfail) (ex_midle ex_mfail_answers)).
Lemma ex_mfail_ledger n : exists L D, mtledger (t64 true) (ex_world ex_mfail_answers) (fun _ => None) (ex_mfailed n) L D.
Proof. unfold ex_mfailed. apply ex_mledger, forall_firstn, ex_mfail_ok. Qed.
(** Used in examples only: a thread without events has no call in progress. *)
Lemma muntouched t i h : forall s, Forall (fun e => PropertiesThreadLedger.thread_of e <> Some i) h -> busy (snd (mtrun t h s)) i = busy s i.
Proof.
  induction h as [|e h IH]; intros s F; [reflexivity|]. apply Forall_cons_iff in F as [E F]. cbn [mtrun]. pose proof (IH (snd (mtstep t e s)) F) as K.
  assert (Tp : ts_pool (snd (tstep t Anonymous e (ms_t s))) i = ts_pool (ms_t s) i).
  { pose proof (PropertiesThreadLedger.untouched t Anonymous i [e] (ms_t s) ltac:(repeat constructor; exact E)) as U. cbn [trun] in U.
    destruct (tstep t Anonymous e (ms_t s)). exact U. }
  assert (Px : busy (snd (on_posix (tstep t Anonymous e (ms_t s)) s)) i = busy s i).
  { unfold on_posix, busy. destruct (tstep t Anonymous e (ms_t s)) as [x y]. cbn in *. rewrite Tp. reflexivity. }
  assert (A : busy (snd (mtstep t e s)) i = busy s i).
  { destruct e as [c|j mut o path|j mut o fd|j inf hint clock|j]; cbn [mtstep PropertiesThreadLedger.thread_of] in *.
    - destruct (mstep t c {| mp_p := ms_p s; mp_ports := ms_ports s |}). reflexivity.
    - destruct (ms_ring s j); [reflexivity|exact Px].
    - destruct (ms_ring s j); [reflexivity|exact Px].
    - destruct (ms_ring s j); [reflexivity|]. destruct (ts_pool (ms_t s) j); [reflexivity|]. destruct (size_round t (size_alloc t) hint); try reflexivity.
      unfold busy. cbn. rewrite put_other by congruence. reflexivity.
    - destruct (ms_ring s j) as [pd|]; [|exact Px]. unfold mgo. destruct (madvance t pd (ms_mach s)) as [[| |] w]; unfold busy; cbn; rewrite put_other by congruence; reflexivity. }
  destruct (mtstep t e s) as [x s1]. cbn [snd] in *. destruct (mtrun t h s1) as [xs s2]. cbn [snd] in *. congruence.
Qed.
Example C104_case :
  exists L D, mtledger (t64 true) (ex_world ex_mfail_answers) (fun _ => None) (ex_mfailed 13) L D /\
    (w_fd (pc_w (ms_p (ex_mfailed 9))) 3 <> None /\ mbusy_page (t64 true) (ex_mfailed 9) 32) /\
    (forall i, busy (ex_mfailed 13) i = false) /\ ~ D 3 /\ L 32 /\ L 33 /\ ~ L 34.
Proof.
  destruct (ex_mfail_ledger 13) as (L & D & H).
  exists L, D. split; [exact H|].
  split; [split; [vm_compute; discriminate|exists 1; eexists; split; [vm_compute; reflexivity|vm_compute; intuition discriminate]]|].
  assert (Np : forall i, busy (ex_mfailed 13) i = false).
  { intros i. destruct (Z.eq_dec i 1) as [->|N1]; [vm_compute; reflexivity|]. destruct (Z.eq_dec i 2) as [->|N2]; [vm_compute; reflexivity|].
    unfold ex_mfailed. rewrite muntouched; [reflexivity|]. cbn [firstn ex_mfail]. repeat (apply Forall_cons; [cbn [PropertiesThreadLedger.thread_of]; congruence|]). apply Forall_nil. }
  split; [exact Np|]. destruct (C104_quiet _ _ _ _ _ _ (t64_posix true) H Np) as [F Q].
  assert (N3 : w_fd (pc_w (ms_p (ex_mfailed 13))) 3 = None) by (vm_compute; reflexivity).
  split; [intros D3; exact (proj2 (F 3) D3 N3)|].
  assert (Nh : forall pg, ~ holds_page (t64 true) (ms_p (ex_mfailed 13)) pg).
  { intros pg [(k & h & Hk & _)|(k & l & Hk & _)]; vm_compute in Hk; discriminate Hk. }
  assert (V32 : w_vm (pc_w (ms_p (ex_mfailed 13))) 32 <> None) by (vm_compute; discriminate).
  assert (V33 : w_vm (pc_w (ms_p (ex_mfailed 13))) 33 <> None) by (vm_compute; discriminate).
  assert (V34 : w_vm (pc_w (ms_p (ex_mfailed 13))) 34 = None) by (vm_compute; reflexivity).
  split; [|split].
  - destruct (proj1 (Q 32) V32) as [E|[E|E]]; [destruct E; vm_compute; reflexivity|destruct (Nh _ E)|exact E].
  - destruct (proj1 (Q 33) V33) as [E|[E|E]]; [destruct E; vm_compute; reflexivity|destruct (Nh _ E)|exact E].
  - intros E. exact (proj2 (Q 34) (or_intror (or_intror E)) V34).
Qed.
(** The entry of that ring is made by its third kernel call, and is there
    when the call has failed. *)
Example C104_ports_case :
  mtreached (t64 true) (ex_mfailed 6) /\ nth_error ex_mfail 6 = Some (EGo 1) /\ ms_ports (ex_mfailed 6) 2563 = None /\
  ms_ports (ex_mfailed 7) 2563 <> None /\ busy (ex_mfailed 13) 1 = false /\ ms_ports (ex_mfailed 13) 2563 = ms_ports (ex_mfailed 7) 2563.
Proof.
  split; [eapply mpath_reached; [apply ex_midle_reached|apply malways_path; [reflexivity|apply forall_firstn, ex_mfail_ok]]|].
  vm_compute. repeat split; discriminate.
Qed.
Print Assumptions C104_pages.
Print Assumptions C104_files.
Print Assumptions C104_quiet.
Print Assumptions C104_ports_kept.
Print Assumptions C104_ports_made.
