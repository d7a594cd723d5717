(** Property theorems C105: no page is made executable unless a map is asked
    for with [Protect::ReadExec], and none both writable and executable.

    The theorems speak about any interleaving of calls of any number of
    threads, with acts of other processes and every behaviour of the kernel,
    on every target; no state or history is excluded. *)
From Coq Require Import Lia.
From Verif Require Import Base ErrorModel OsModel MapModel MapSpec SizeProofs OsProofs MapProofs MapCreate RingMapModel SizeModel
  WinModel WinSpec WinMapModel WinMapSpec WinMapProofs WinAlloc WinAllocWraps WinProcModel WinThreadModel
  PropertiesWin PropertiesWinThread ApiModel ProcModel ThreadModel MachThreadModel ExecSpec ExecProofs ExecWin PropertiesSize PropertiesMap PropertiesThread PropertiesMachThread.

Lemma wx_protect p : allowed one_of p.
Proof. destruct p; unfold allowed, one_of; cbn; congruence. Qed.
Lemma wx_r : one_of false false.
Proof. discriminate. Qed.
Lemma wx_w : one_of true false.
Proof. discriminate 2. Qed.

(** A page that can be both written and executed could be so from the start.
    On Linux, Android and the BSDs: *)
Theorem C105_write_xor_execute : forall t plat h s, permissions one_of (pc_w (ts_p s)) (pc_w (ts_p (snd (trun t plat h s)))).
Proof.
  intros t plat h s. apply (trun_allowed t one_of wx_w plat h s).
  - apply Forall_forall. intros e _ o _. apply wx_protect.
  - intros tid pd _. destruct pd; cbn; first [apply wx_protect | exact Logic.I].
Qed.
(** On macOS and iOS: *)
Theorem C105_write_xor_execute_macos : forall t h s, permissions one_of (pc_w (ms_p s)) (pc_w (ms_p (snd (mtrun t h s)))).
Proof.
  intros t h s. apply (mtrun_allowed t one_of wx_w h s).
  - apply Forall_forall. intros e _ o _. apply wx_protect.
  - intros tid pd _. destruct pd; cbn; first [apply wx_protect | exact Logic.I].
Qed.
(** On Windows: *)
Theorem C105_write_xor_execute_windows : forall t h s, permissions one_of (wt_w s) (wt_w (snd (wtrun t h s))).
Proof.
  intros t h s. apply (wtrun_allowed t one_of wx_r wx_w h s).
  - apply Forall_forall. intros e _ o _. apply wx_protect.
  - intros tid pd _. destruct pd; cbn; first [apply wx_protect | exact Logic.I].
Qed.

(** And if no event asks for [Protect::ReadExec], then a page that is
    executable was so at the start: no call makes memory executable, neither
    the memory of maps nor that of rings, nor does a conversion. *)
Theorem C105_no_execute : forall t plat h w, Forall no_exec h -> permissions not_executable w (pc_w (ts_p (snd (trun t plat h (idle w))))).
Proof.
  intros t plat h w F. apply (trun_allowed t not_executable eq_refl plat h (idle w)); [|discriminate].
  eapply Forall_impl; [|exact F]. intros e H o Ho. exact (H o Ho).
Qed.
Theorem C105_no_execute_macos : forall t h w ports, Forall no_exec h -> permissions not_executable w (pc_w (ms_p (snd (mtrun t h (midle w ports))))).
Proof.
  intros t h w ports F. apply (mtrun_allowed t not_executable eq_refl h (midle w ports)); [|discriminate].
  eapply Forall_impl; [|exact F]. intros e H o Ho. exact (H o Ho).
Qed.
Theorem C105_no_execute_windows : forall t h s, Forall wno_exec h -> permissions not_executable (n_w s) (wt_w (snd (wtrun t h (widle s)))).
Proof.
  intros t h s F. apply (wtrun_allowed t not_executable eq_refl eq_refl h (widle s)); [|discriminate].
  eapply Forall_impl; [|exact F]. intros e H o Ho. exact (H o Ho).
Qed.

(** The pages of a new map have the permissions its options ask for, exactly
    (POSIX). *)
Theorem C105_made : forall t o w m w', posix_target t -> wf w -> options_ok t o ->
  (exists fd, map_if t o fd w = (Ret (Some m), w')) \/ ((alloc_fits t o \/ t_checks t = true) /\ alloc t o w = (Ret m, w')) ->
  forall p, own_page t m p -> exists e, w_vm w' p = Some e /\ p_w e = prot_writes (op_protect o) /\ p_x e = prot_execs (op_protect o).
Proof.
  intros t o w m w' Ht W O H p Hp.
  assert (C : exists w1 ob off maxw, created t w1 w' m ob off (op_protect o) maxw).
  { destruct H as [(fd & H)|[Fit H]].
    - pose proof (map_if_spec t Ht _ _ _ _ _ W O H) as M. destruct (w_fd w fd) as [f|]; [|destruct M as (e & X & _); discriminate X].
      destruct M as (w1 & _ & L & _ & _ & _ & _ & C & _). eauto.
    - destruct (alloc_spec t Ht _ _ _ _ W O Fit H) as (_ & _ & _ & C & _). eauto. }
  destruct C as (w1 & ob & off & maxw & C). destruct (bk_pages _ _ _ _ _ _ _ (cr_backed _ _ _ _ _ _ _ _ C) p Hp) as (e & E & _).
  exists e. destruct (cr_fresh _ _ _ _ _ _ _ _ C p e Hp E) as (_ & _ & A & B). auto.
Qed.

(** On Windows the pages of the whole view of a new map have them, also when
    the size of an anonymous map wraps (C102). *)
Theorem C105_made_windows : forall t o s m s', good_target t -> wf (n_w s) -> options_ok t o ->
  (exists fd, wmap_if t o fd s = (Ret (Some m), s')) \/ walloc t o s = (Ret m, s') ->
  exists n, n_view s' (map_base t m) = Some n /\ 0 < n /\
  forall p, in_view t (map_base t m) n p -> w_vm (n_w s) p = None /\
    exists e, w_vm (n_w s') p = Some e /\ p_w e = prot_writes (op_protect o) /\ p_x e = prot_execs (op_protect o).
Proof.
  intros t o s m s' Ht W O H.
  set (good := fun a b => a = prot_writes (op_protect o) /\ b = prot_execs (op_protect o)).
  assert (Al : ExecProofs.allowed good (op_protect o)) by (unfold ExecProofs.allowed, good; destruct (op_protect o); cbn; auto).
  assert (K : permissions good (n_w s) (n_w s')).
  { destruct H as [(fd & H)|H].
    - pose proof (n_wmap_if t good o fd Al s) as X. rewrite H in X. exact X.
    - pose proof (n_walloc t good o Al s) as X. rewrite H in X. exact X. }
  assert (V : exists s1 ob off L, (forall p, w_vm (n_w s1) p = None -> w_vm (n_w s) p = None) /\ view_of t s1 s' ob off L (op_protect o) (map_base t m)).
  { destruct H as [(fd & H)|H].
    - destruct (wmap_if_spec t Ht _ _ _ _ _ W O H) as [_ M]. destruct (w_fd (n_w s) fd) as [f|]; [|destruct M as (e & X & _); discriminate X].
      destruct M as (w1 & Fd & L & _ & _ & _ & _ & _ & _ & _ & M).
      exists (with_w s w1). do 3 eexists. split; [|exact (md_view _ _ _ _ _ _ _ _ M)].
      intros p X. cbn in X. pose proof (tc_vm _ _ _ (fdn_touched _ _ _ _ _ Fd) p) as T. rewrite X in T. destruct (w_vm (n_w s) p); [contradiction|reflexivity].
    - exists s. destruct (t_checks t) eqn:Ck.
      + destruct (walloc_spec t Ht _ _ _ _ W O (or_intror Ck) H) as (_ & _ & _ & _ & _ & M & _).
        do 3 eexists. split; [auto|exact (md_view _ _ _ _ _ _ _ _ M)].
      + assert (D : walloc_fits t o \/ ~ walloc_fits t o).
        { unfold walloc_fits. destruct (op_len o); lia. }
        destruct D as [Fit|Nf].
        * destruct (walloc_spec t Ht _ _ _ _ W O (or_introl Fit) H) as (_ & _ & _ & _ & _ & M & _).
          do 3 eexists. split; [auto|exact (md_view _ _ _ _ _ _ _ _ M)].
        * destruct (walloc_wraps t Ht _ _ _ _ O Ck Nf H) as (V & _ & _ & _ & M & _).
          do 3 eexists. split; [auto|exact M]. }
  destruct V as (s1 & ob & off & L & Ev & (V0 & _ & _ & _ & Va & Vs)).
  exists (npages t L). split; [exact (ov_new _ _ _ _ _ Va)|]. split; [apply npages_pos; [exact (pow2_pos _ (proj1 (proj2 Ht)))|exact V0]|].
  intros p Hp. assert (N : w_vm (n_w s) p = None) by (apply Ev; exact (ov_in _ _ _ _ _ Va p Hp)). split; [exact N|].
  destruct (Vs p Hp) as (e & E & _). exists e. split; [exact E|].
  destruct (K p e E) as [X|(e0 & X & _)]; [exact X|rewrite N in X; discriminate X].
Qed.

(** An executable map, and what becomes of its page when the map is made
    writable. *)
Definition exec_options : options :=
  {| op_open := op_open mapmut_with_options; op_resize := op_resize opt_new; op_len := ExtExact 100; op_offset := 0; op_protect := ReadExec;
     op_truncate := false |}.
Definition page_bits (w : world) (p : Z) : option (bool * bool) := option_map (fun e => (p_w e, p_x e)) (w_vm w p).
Example C105_case :
  let q := [Grant 3; Grant 0; Grant 65536; Grant 0; Grant 0] in
  let h := [EOpen 2 false exec_options 7; EGo 2; EGo 2; EGo 2; EGo 2; EGo 2] in
  let s := snd (trun (t64 true) Anonymous h (idle (ex_world q))) in
  let s' := snd (trun (t64 true) Anonymous [ECall (PMap (CToMut 0))] s) in
  page_bits (pc_w (ts_p s)) 16 = Some (false, true) /\ page_bits (pc_w (ts_p s')) 16 = Some (true, false) /\
  page_bits (wt_w (snd (wtrun (twin true) (WEOpen 2 false exec_options 7 :: repeat (WEGo 2) 7) (widle (ex_win [] [Grant 5; Grant 0; Grant 88; Grant 65536]))))) 16
    = Some (false, true).
Proof. vm_compute. auto. Qed.
Example C105_made_case : match alloc (t64 true) exec_options (ex_world [Grant 65536]) with
  | (Ret m, w') => m_ptr m = 65536 /\ page_bits w' 16 = Some (false, true) /\ page_bits w' 17 = None
  | _ => False
  end.
Proof. vm_compute. auto. Qed.
Example C105_made_windows_case : match walloc (twin true) exec_options (ex_win [] [Grant 88; Grant 131072; Grant 0]) with
  | (Ret m, s') => m_ptr m = 131072 /\ n_view s' 131072 = Some 1 /\ page_bits (n_w s') 32 = Some (false, true) /\ page_bits (n_w s') 33 = None
  | _ => False
  end.
Proof. vm_compute. auto. Qed.
(** The programs of C91, C97 and C103 ask for no executable memory. *)
Example C105_no_execute_case : Forall no_exec ex_mboth /\ Forall wno_exec exw_events /\
  page_bits (pc_w (ms_p (ex_mat 30 []))) 16 = Some (true, false) /\ page_bits (wt_w (exw_at 30 [])) 64 = Some (true, false).
Proof.
  split; [|split].
  - repeat (apply Forall_cons; [intros o Ho; first [discriminate Ho | injection Ho as <-; reflexivity]|]). apply Forall_nil.
  - repeat (apply Forall_cons; [intros o Ho; first [discriminate Ho | injection Ho as <-; reflexivity]|]). apply Forall_nil.
  - vm_compute. auto.
Qed.
Print Assumptions C105_made.
Print Assumptions C105_made_windows.
Print Assumptions C105_write_xor_execute.
Print Assumptions C105_write_xor_execute_macos.
Print Assumptions C105_write_xor_execute_windows.
Print Assumptions C105_no_execute.
Print Assumptions C105_no_execute_macos.
Print Assumptions C105_no_execute_windows.
