(** Property theorems C93: calls in progress leave nothing behind (POSIX).

    [tledger t plat w s L D]: [s] is the state after any interleaving of any
    number of threads and other processes, from the kernel state [w]; [L] are
    the pages left behind on the way (those [munmap] was asked for and the
    kernel refused, as in C85), [D] the descriptors the program has: those
    open at the start and those handed to it, until it closes them. *)
From Coq Require Import Lia.
From Verif Require Import Base Spec ErrorModel RingSpec RingModel OsModel OthersModel MapModel MapSpec ApiModel ApiSpec
  RingMapModel RingMapSpec OsProofs SizeModel MemRingModel ProcModel ProcSpec ProcLedgerSpec ThreadModel ThreadSpec ThreadLedgerSpec ThreadLedger
  PropertiesSize PropertiesMap PropertiesRingMap PropertiesProc PropertiesThread.

(** Every mapped page was mapped at the start, or belongs to a map or a ring,
    or is reserved by a call in progress, or is accounted as left behind; and
    to one of these only.  So a call that is interrupted, or fails, at any of
    its system calls keeps no memory otherwise. *)
Theorem C93_pages : forall t plat w s L D, posix_target t -> tledger t plat w s L D -> pages_accounted t w s L.
Proof. intros t plat w s L D Ht. exact (ledger_pages t plat Ht w s L D). Qed.
(** Every open descriptor is the program's, or that of exactly one call in
    progress: no call that failed has left a file open, and no call has
    closed a descriptor of the program, or of another thread. *)
Theorem C93_files : forall t plat w s L D, posix_target t -> tledger t plat w s L D -> files_accounted s D.
Proof. intros t plat w s L D Ht. exact (ledger_files t plat Ht w s L D). Qed.
(** So, when no call is in progress: *)
Theorem C93_quiet : forall t plat w s L D, posix_target t -> tledger t plat w s L D -> (forall tid, ts_pool s tid = None) ->
  (forall fd, w_fd (pc_w (ts_p s)) fd <> None <-> D fd) /\
  (forall pg, w_vm (pc_w (ts_p s)) pg <> None <-> w_vm w pg <> None \/ holds_page t (ts_p s) pg \/ L pg).
Proof.
  intros t plat w s L D Ht H N. split.
  - intros fd. destruct (ledger_files t plat Ht w s L D H fd) as (A & _). rewrite A. split; [|auto].
    intros [Q|(i & pd & Q & _)]; [exact Q|]. rewrite N in Q. discriminate Q.
  - intros pg. destruct (ledger_pages t plat Ht w s L D H pg) as (A & _). rewrite A. split; [|tauto].
    intros [Q|[Q|[(i & pd & Q & _)|Q]]]; auto. rewrite N in Q. discriminate Q.
Qed.

Lemma ledger_path t plat w h : forall s s' L D, tledger t plat w s L D -> tpath t plat s h s' -> exists L' D', tledger t plat w s' L' D'.
Proof.
  induction h as [|e h IH]; intros s s' L D H Hp; inversion Hp; subst; [eauto|].
  match goal with A : ev_ok _ _ _, B : tpath _ _ _ _ _ |- _ => exact (IH _ _ _ _ (tl_step _ _ _ _ _ _ _ H A) B) end.
Qed.
Lemma ex_ledger q h : Forall (always_ok (t64 true)) h ->
  exists L D, tledger (t64 true) Anonymous (ex_world q) (snd (trun (t64 true) Anonymous h (ex_idle q))) L D.
Proof. intros F. eapply ledger_path; [apply tl_start, ex_wf|apply always_path, F]. Qed.

(** Used in examples only: a thread without events has no call in progress. *)
Definition thread_of (e : event) : option Z := match e with ECall _ => None | EOpen i _ _ _ | EMap i _ _ _ | ERing i _ _ _ | EGo i => Some i end.
Lemma untouched t plat i h : forall s, Forall (fun e => thread_of e <> Some i) h -> ts_pool (snd (trun t plat h s)) i = ts_pool s i.
Proof.
  induction h as [|e h IH]; intros s F; [reflexivity|]. apply Forall_cons_iff in F as [E F]. cbn [trun]. pose proof (IH (snd (tstep t plat e s)) F) as K.
  assert (A : ts_pool (snd (tstep t plat e s)) i = ts_pool s i).
  { destruct e as [c|j mut o path|j mut o fd|j inf hint clock|j]; cbn [tstep thread_of] in *.
    - destruct (pstep t plat c (ts_p s)). reflexivity.
    - unfold begin. destruct (ts_pool s j); [reflexivity|]. cbn. apply put_other. congruence.
    - unfold begin. destruct (ts_pool s j); [reflexivity|]. cbn. apply put_other. congruence.
    - unfold begin. destruct (ts_pool s j); [reflexivity|]. destruct (size_round t (size_alloc t) hint); try reflexivity. cbn. apply put_other. congruence.
    - destruct (ts_pool s j) as [pd|]; [|reflexivity]. unfold go. destruct (advance t plat pd (pc_w (ts_p s))) as [[| | |] w]; cbn; apply put_other; congruence. }
  destruct (tstep t plat e s) as [x s1]. cbn [snd] in *. destruct (trun t plat h s1) as [xs s2]. cbn [snd] in *. congruence.
Qed.
(** Thread 1 makes a ring, thread 2 opens file 7; the map of thread 2 is
    refused, and so are the second half of the ring and its undoing. *)
Definition ex_fail : list event :=
  [ERing 1 false 100 epoch; EOpen 2 true mapmut_with_options 7; EGo 1; EGo 2; EGo 1; EGo 2; EGo 1; EGo 2; EGo 2; EGo 1; EGo 2; EGo 1; EGo 2; EGo 1; EGo 1].
Definition ex_fail_answers : list answer :=
  [Grant 4; Grant 3; Grant 0; Grant 0; Grant 131072; Grant 131072; Refuse 12; Refuse 12; Refuse 12; Grant 0].
Lemma ex_fail_ok : Forall (always_ok (t64 true)) ex_fail.
Proof. events_ok. Qed.
Example C93_case :
  let s n := snd (trun (t64 true) Anonymous (firstn n ex_fail) (ex_idle ex_fail_answers)) in
  exists L D, tledger (t64 true) Anonymous (ex_world ex_fail_answers) (s 15%nat) L D /\
    (w_fd (pc_w (ts_p (s 11%nat))) 4 <> None /\ w_fd (pc_w (ts_p (s 11%nat))) 3 <> None) /\
    (ts_pool (s 15%nat) 1 = None /\ ts_pool (s 15%nat) 2 = None) /\ ~ D 3 /\ ~ D 4 /\ L 32 /\ L 33 /\ ~ L 34.
Proof.
  cbv zeta. destruct (ex_ledger ex_fail_answers (firstn 15 ex_fail) (forall_firstn _ _ _ ex_fail_ok)) as (L & D & H).
  exists L, D. split; [exact H|]. set (s := snd (trun (t64 true) Anonymous (firstn 15 ex_fail) (ex_idle ex_fail_answers))) in *.
  split; [split; vm_compute; discriminate|]. split; [split; vm_compute; reflexivity|].
  pose proof (C93_files _ _ _ _ _ _ (t64_posix true) H) as F. pose proof (C93_pages _ _ _ _ _ _ (t64_posix true) H) as Pg.
  assert (N3 : w_fd (pc_w (ts_p s)) 3 = None) by (vm_compute; reflexivity). assert (N4 : w_fd (pc_w (ts_p s)) 4 = None) by (vm_compute; reflexivity).
  split; [intros Q; exact (proj2 (proj1 (F 3)) (or_introl Q) N3)|]. split; [intros Q; exact (proj2 (proj1 (F 4)) (or_introl Q) N4)|].
  assert (Np : forall i, ts_pool s i = None).
  { intros i. destruct (Z.eq_dec i 1) as [->|N1]; [vm_compute; reflexivity|]. destruct (Z.eq_dec i 2) as [->|N2]; [vm_compute; reflexivity|].
    unfold s. rewrite untouched; [reflexivity|]. cbn [firstn ex_fail]. repeat (apply Forall_cons; [cbn [thread_of]; congruence|]). apply Forall_nil. }
  destruct (C93_quiet _ _ _ _ _ _ (t64_posix true) H Np) as [_ Q]. clear F.
  assert (Nh : forall pg, ~ holds_page (t64 true) (ts_p s) pg).
  { intros pg [(k & h & Hk & _)|(k & l & Hk & _)]; vm_compute in Hk; discriminate Hk. }
  assert (V32 : w_vm (pc_w (ts_p s)) 32 <> None) by (vm_compute; discriminate). assert (V33 : w_vm (pc_w (ts_p s)) 33 <> None) by (vm_compute; discriminate).
  assert (V34 : w_vm (pc_w (ts_p s)) 34 = None) by (vm_compute; reflexivity).
  split; [|split].
  - destruct (proj1 (Q 32) V32) as [E|[E|E]]; [destruct E; vm_compute; reflexivity|destruct (Nh _ E)|exact E].
  - destruct (proj1 (Q 33) V33) as [E|[E|E]]; [destruct E; vm_compute; reflexivity|destruct (Nh _ E)|exact E].
  - intros E. exact (proj2 (Q 34) (or_intror (or_intror E)) V34).
Qed.
Print Assumptions C93_pages.
Print Assumptions C93_files.
Print Assumptions C93_quiet.
