(** Property theorem C05: the page-size and allocation-size cache. *)
From Coq Require Import Lia.
From Verif Require Import Base SysInfoModel SysInfoProofs PropertiesSize.

(** ** C05.  In every execution of any number of threads: every finished call
    returned the true value and took at most 4 steps of its own; the calls are
    answered in program order; no thread asks the system more than once; and a
    thread with a call to make or running can always step, whatever the others
    do (so a call finishes within 4 steps of its thread). *)
Theorem C05_cache_race_free : forall t prog sched s,
  good_target t -> sys_run t sched (sys_init prog) = Some s ->
  forall i, let th := s_th s i in
  Forall (fun x : call * Z * nat => let '(c, v, k) := x in
    v = match c with PageSize => t_page t | AllocSize => t_alloc t end /\ (k <= 4)%nat) (th_res th) /\
  (exists rest, map (fun x => fst (fst x)) (th_res th) ++ rest = prog i /\
     (th_pc th = Idle -> rest = th_todo th)) /\
  (th_info th <= 1)%nat /\ (th_cur th < 4)%nat /\
  (th_pc th <> Idle \/ th_todo th <> [] -> exists ch s', sys_step t i ch s = Some s') /\
  Forall (fun v => v = t_page t) (c_page (s_mem s)) /\ Forall (fun v => v = t_alloc t) (c_alloc (s_mem s)).
Proof.
  intros t prog sched s Hg E i th.
  pose proof (sys_run_ok t Hg prog sched _ _ (sys_init_ok t prog) E) as Ok.
  destruct Ok as [[Mp Ma] T]. pose proof (T i) as (H1 & H2 & H3 & H4 & H5). fold th in H1, H2, H3, H4, H5.
  split; [eapply Forall_impl; [|exact H1]; intros [[c v] k] [A B]; split; [exact A|exact B]|].
  split.
  { exists (pending th ++ th_todo th). split; [exact H2|]. intros P. unfold pending. rewrite P. reflexivity. }
  split; [destruct (th_pc th); intuition lia|]. split; [destruct (th_pc th); intuition lia|].
  split; [intros W; exact (enabled t prog s i (conj (conj Mp Ma) T) W)|].
  split; [eapply Forall_impl; [|exact Mp]; auto|eapply Forall_impl; [|exact Ma]; auto].
Qed.
(** Three threads race: 0 and 1 both read 0 and both ask the system; thread 2
    reads the page size after the first store but the allocation size too
    early. *)
Definition ex_prog (i : nat) : list call :=
  match i with O => [PageSize] | 1%nat => [AllocSize; PageSize] | 2%nat => [PageSize; AllocSize] | _ => [] end.
Definition ex_sched : list (nat * choice) :=
  [(0, Initial); (1, Initial); (0, Initial); (0, Initial); (2, Stored 0); (2, Initial); (1, Initial); (2, Initial);
   (0, Initial); (1, Initial); (1, Initial); (2, Initial); (1, Stored 0); (2, Initial)]%nat.
Example C05_case :
  match sys_run (t64 true) ex_sched (sys_init ex_prog) with
  | Some s =>
    th_res (s_th s 0%nat) = [(PageSize, 4096, 4%nat)] /\
    th_res (s_th s 1%nat) = [(AllocSize, 4096, 4%nat); (PageSize, 4096, 1%nat)] /\
    th_res (s_th s 2%nat) = [(PageSize, 4096, 1%nat); (AllocSize, 4096, 4%nat)]
  | None => False
  end.
Proof. vm_compute. auto. Qed.
Print Assumptions C05_cache_race_free.
