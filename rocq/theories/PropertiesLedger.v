(** Property theorems C85: every mapped page is accounted for, whatever the
    kernel refuses.

    [ledger t plat w p L]: [p] is the state after any history of calls on maps
    and rings from the well-formed kernel state [w], against any sequence of
    kernel answers, and [L] is the set of pages the calls left behind
    ([lost] of ProcLedgerSpec.v).  [mledger] is the same on macOS. *)
From Coq Require Import Lia.
From Verif Require Import Base Spec ErrorModel RingSpec RingModel RingTheorems RingClaims OsModel MapModel MapSpec ApiModel ApiSpec
  RingMapModel RingMapSpec OsProofs MemRingModel MachModel MachSpec ProcModel ProcSpec ProcProofs ProcClaims ProcPages
  MachProcModel MachProcSpec MachProcProofs MachProcClaims ProcLedgerSpec ProcLedger
  PropertiesSize PropertiesMap PropertiesRingMap PropertiesProc PropertiesMachProc.

(** ** Used in the examples only: the set of pages after a list of calls. *)
Fixpoint lost_run (t : target) (plat : platform) (h : list pcall) (p : proc) (L : Z -> Prop) : Z -> Prop :=
  match h with
  | [] => L
  | c :: h => let '(x, p') := pstep t plat c p in lost_run t plat h p' (fun pg => L pg \/ lost t c p x p' pg)
  end.
Lemma lost_run_ledger t plat w h : forall p L, ledger t plat w p L -> Forall (pcall_ok t) h ->
  ledger t plat w (snd (prun t plat h p)) (lost_run t plat h p L).
Proof.
  induction h as [|c h IH]; intros p L H F; [exact H|]. apply Forall_cons_iff in F as [F1 F]. pose proof (IH _ _ (lg_step _ _ _ _ _ _ H F1) F) as K.
  cbn [prun lost_run]. destruct (pstep t plat c p) as [x p1]. cbn [fst snd] in K. destruct (prun t plat h p1) as [xs p2]. exact K.
Qed.
Fixpoint mlost_run (t : target) (h : list pcall) (p : mproc) (L : Z -> Prop) : Z -> Prop :=
  match h with
  | [] => L
  | c :: h => let '(x, p') := mstep t c p in mlost_run t h p' (fun pg => L pg \/ lost t c (mp_p p) x (mp_p p') pg)
  end.
Lemma mlost_run_ledger t w h : forall p L, mledger t w p L -> Forall (mcall_ok t) h ->
  mledger t w (snd (mrun t h p)) (mlost_run t h p L).
Proof.
  induction h as [|c h IH]; intros p L H F; [exact H|]. apply Forall_cons_iff in F as [F1 F]. pose proof (IH _ _ (ml_step _ _ _ _ _ H F1) F) as K.
  cbn [mrun mlost_run]. destruct (mstep t c p) as [x p1]. cbn [fst snd] in K. destruct (mrun t h p1) as [xs p2]. exact K.
Qed.
(** When nothing is held, what is left is what was not mapped at the start. *)
Lemma ledger_example t w p L : (forall k, pc_ring p k = None) -> (forall k, a_live (pc_a p) k = None) -> accounted t w p L ->
  forall pg, (w_vm (pc_w p) pg <> None /\ w_vm w pg = None) <-> L pg.
Proof.
  intros Nr Nm A pg. destruct (A pg) as (A1 & A2 & _). assert (N : ~ holds_page t p pg).
  { intros [(k & h & Hk & _)|(k & l & Hk & _)]; [rewrite Nr in Hk|rewrite Nm in Hk]; discriminate Hk. }
  split.
  - intros [H1 H2]. apply A1 in H1. tauto.
  - intros H. split; [tauto|]. destruct (w_vm w pg); [|reflexivity]. exfalso. apply A2; [discriminate|exact H].
Qed.

(** ** C85: the mapped pages are those of the start, those the program holds
    and those left behind, and no page is in two of the sets. *)
Theorem C85_ledger : forall t plat w p L, posix_target t -> ledger t plat w p L -> accounted t w p L.
Proof. intros t plat w p L Ht. exact (ledger_accounted t plat Ht w p L). Qed.
(** A failed attempt to make a ring leaves pages of one range only, and none
    unless the kernel refused the last thing it was asked. *)
Theorem C85_attempt : forall t plat p hint clock c, posix_target t -> preached t plat p -> is_usize t hint ->
  c = PRing hint clock \/ c = PInf hint clock ->
  let '(x, p') := pstep t plat c p in
  in_one_ring t hint (lost t c p x p') /\ ((exists pg, lost t c p x p' pg) -> refused_last (pc_w p) (pc_w p')).
Proof. intros t plat p hint clock c Ht. exact (attempt_lost t plat Ht p hint clock c). Qed.
(** After [ex_mixed] the kernel refuses to release ring 0 and the map, and
    makes an attempt at a third ring fail in the middle and again when it is
    undone; ring 1 is released. *)
Definition ex_refusals : list pcall := [PDrop 0; PMap (CDrop 0); PRing 100 epoch; PDrop 1].
Definition ex_refused : list answer := [Refuse 5; Refuse 5; Grant 4; Grant 0; Grant 524288; Refuse 12; Refuse 5; Grant 0; Grant 0].
Example C85_case : forall c,
  let w := ex_world (ex_mixed_answers ++ ex_refused) in
  let h := ex_mixed ++ ex_refusals in let p := snd (prun (t64 c) Anonymous h (fresh w)) in let L := lost_run (t64 c) Anonymous h (fresh w) (fun _ => False) in
  ledger (t64 c) Anonymous w p L /\
  (L 16 /\ L 32 /\ L 33 /\ L 128 /\ L 129) /\ (~ L 34 /\ ~ L 64 /\ ~ L 130) /\ w_vm (pc_w p) 64 = None.
Proof.
  intros c. cbv zeta.
  assert (G : ledger (t64 c) Anonymous (ex_world (ex_mixed_answers ++ ex_refused))
    (snd (prun (t64 c) Anonymous (ex_mixed ++ ex_refusals) (fresh (ex_world (ex_mixed_answers ++ ex_refused)))))
    (lost_run (t64 c) Anonymous (ex_mixed ++ ex_refusals) (fresh (ex_world (ex_mixed_answers ++ ex_refused))) (fun _ => False))).
  { apply lost_run_ledger; [apply lg_start, ex_wf|]. apply Forall_app. split; [apply ex_mixed_ok|destruct c; pcalls_ok]. }
  split; [exact G|]. pose proof (C85_ledger _ _ _ _ _ (t64_posix c) G) as A.
  match type of G with ledger _ _ _ ?p ?L => assert (K : (forall k, pc_ring p k = None) /\ (forall k, a_live (pc_a p) k = None)) end.
  { destruct c; split; intros k; vm_compute; destruct k as [|q|q]; try reflexivity; repeat (destruct q; try reflexivity). }
  revert K A. generalize (lost_run (t64 c) Anonymous (ex_mixed ++ ex_refusals) (fresh (ex_world (ex_mixed_answers ++ ex_refused))) (fun _ => False)).
  intros L [K1 K2] A. pose proof (ledger_example _ _ _ L K1 K2 A) as E. clear A.
  rewrite <- !E. clear E. destruct c; vm_compute; intuition discriminate.
Qed.
Print Assumptions C85_ledger.
Print Assumptions C85_attempt.

(** ** The same on macOS: rings are made and released with Mach calls. *)
Theorem C85_mach_ledger : forall t w p L, posix_target t -> mledger t w p L -> accounted t w (mp_p p) L.
Proof. intros t w p L Ht. exact (mledger_accounted t Ht w p L). Qed.
Theorem C85_mach_attempt : forall t p hint clock c, posix_target t -> mreached t p -> mcall_ok t c ->
  c = PRing hint clock \/ c = PInf hint clock ->
  let '(x, p') := mstep t c p in
  in_one_ring t hint (lost t c (mp_p p) x (mp_p p')) /\
  ((exists pg, lost t c (mp_p p) x (mp_p p') pg) -> refused_last (pc_w (mp_p p)) (pc_w (mp_p p'))).
Proof. intros t p hint clock c Ht. exact (mattempt_lost t Ht p hint clock c). Qed.
Definition ex_mach_refused : list answer := [Refuse 5; Refuse 5; Grant 524288; Grant 0; Grant 3075; Refuse 3; Refuse 5; Grant 0; Grant 0].
Example C85_mach_case : forall c,
  let w := ex_world (ex_mach_answers ++ ex_mach_refused) in let p0 := mfresh w (fun _ => None) in
  let h := ex_mixed ++ ex_refusals in let p := snd (mrun (t64 c) h p0) in let L := mlost_run (t64 c) h p0 (fun _ => False) in
  mledger (t64 c) w p L /\
  (L 16 /\ L 32 /\ L 33 /\ L 128 /\ L 129) /\ (~ L 34 /\ ~ L 64 /\ ~ L 130) /\ w_vm (pc_w (mp_p p)) 64 = None.
Proof.
  intros c. cbv zeta.
  assert (G : mledger (t64 c) (ex_world (ex_mach_answers ++ ex_mach_refused))
    (snd (mrun (t64 c) (ex_mixed ++ ex_refusals) (mfresh (ex_world (ex_mach_answers ++ ex_mach_refused)) (fun _ => None))))
    (mlost_run (t64 c) (ex_mixed ++ ex_refusals) (mfresh (ex_world (ex_mach_answers ++ ex_mach_refused)) (fun _ => None)) (fun _ => False))).
  { apply mlost_run_ledger; [apply ml_start, ex_wf|]. apply Forall_app. split; [apply ex_mixed_mach_ok|destruct c; mcalls_ok]. }
  split; [exact G|]. pose proof (C85_mach_ledger _ _ _ _ (t64_posix c) G) as A.
  match type of G with mledger _ _ ?p ?L => assert (K : (forall k, pc_ring (mp_p p) k = None) /\ (forall k, a_live (pc_a (mp_p p)) k = None)) end.
  { destruct c; split; intros k; vm_compute; destruct k as [|q|q]; try reflexivity; repeat (destruct q; try reflexivity). }
  revert K A. generalize (mlost_run (t64 c) (ex_mixed ++ ex_refusals) (mfresh (ex_world (ex_mach_answers ++ ex_mach_refused)) (fun _ => None)) (fun _ => False)).
  intros L [K1 K2] A. pose proof (ledger_example _ _ _ L K1 K2 A) as E. clear A.
  rewrite <- !E. clear E. destruct c; vm_compute; intuition discriminate.
Qed.
Print Assumptions C85_mach_ledger.
Print Assumptions C85_mach_attempt.
