(** Calls in progress on Windows and the files they open. *)
From Coq Require Import Lia.
From Verif Require Import Base Spec ErrorModel SizeModel OsModel MapModel MapSpec RingMapModel RingMapSpec SizeProofs OsProofs
  MapProofs MapCreate MapOps MirrorProofs RingMapClaims MemRingModel ProcModel ProcFrame ProcProofs ProcPages
  WinModel WinSpec WinProofs WinClaims WinCalls WinMapModel WinMapSpec WinSpace WinOthers WinKeep WinMapProofs WinAlloc WinThings WinHist WinLeak WinMapClaims
  WinProcModel WinProcSpec WinProcProofs WinLedgerSpec WinLedger WinThreadModel WinThreadSpec WinThreadInv WinThreadAdv WinThreadStep WinThreadAlone WinThreadLedgerSpec WinThreadLedger.

(** ** Calls that open and close no file *)
Definition fdw {E A} (m : ST E A) : Prop := forall w, w_fd (snd (m w)) = w_fd w.
Definition fdly {E A} (m : WT E A) : Prop := forall s, w_fd (n_w (snd (m s))) = w_fd (n_w s).

Lemma fdw_ret {E A} (a : A) : fdw (sret (E:=E) a).
Proof. intros w. reflexivity. Qed.
Lemma fdw_bind {E A B} (m : ST E A) (k : A -> ST E B) : fdw m -> (forall a, fdw (k a)) -> fdw (sbind m k).
Proof. intros H K w. unfold sbind. specialize (H w). destruct (m w) as [[a|e| | |] w1]; cbn in *; try exact H. rewrite K. exact H. Qed.
Lemma fdw_ask {A} (k : Z -> ST Z A) : (forall a, fdw (k a)) -> fdw (ask k).
Proof. intros H w. unfold ask. destruct (w_orc w) as [|[e|a] o]; [reflexivity..|]. rewrite H. reflexivity. Qed.
Lemma fdw_io {A} (m : ST io_error A) : fdw m -> fdw (io_call m).
Proof. intros H w. specialize (H w). unfold io_call. destruct (m w) as [[a|e| | |] w1]; exact H. Qed.
Lemma fdly_out {E A} (x : out E A) : fdly (wout x).
Proof. intros s. reflexivity. Qed.
Lemma fdly_bind {E A B} (m : WT E A) (k : A -> WT E B) : fdly m -> (forall a, fdly (k a)) -> fdly (wbind m k).
Proof. intros H K s. unfold wbind. specialize (H s). destruct (m s) as [[a|e| | |] s1]; cbn in *; try exact H. rewrite K. exact H. Qed.
Lemma fdly_call {A} c (k : Z -> (Z -> bool) -> WT Z A) : (forall a f, fdly (k a f)) -> fdly (call c k).
Proof.
  intros H s. unfold call, ask. set (f := hd (fun _ => false) (n_env s)). destruct (w_orc (n_w s)) as [|[e|a] o]; [reflexivity..|].
  pose proof (H a f (with_w (with_env s (tl (n_env s))) (set_orc (n_w s) o))) as E. destruct (k a f _) as [r s2]. destruct r; exact E.
Qed.
Lemma fdly_win {A} op (m : WT Z A) : fdly m -> fdly (win_call op m).
Proof. intros H s. specialize (H s). unfold win_call. destruct (m s) as [[a|e| | |] s1]; exact H. Qed.
Lemma fdly_none {A} (m : WT Z A) : fdly m -> fdly (no_result m).
Proof. intros H s. specialize (H s). unfold no_result. destruct (m s) as [[a|e| | |] s1]; exact H. Qed.
Lemma fdly_lift {E A} (m : ST E A) : fdw m -> fdly (lift m).
Proof. intros H s. unfold lift. specialize (H (n_w s)). destruct (m (n_w s)) as [r w]. exact H. Qed.

Section Files.
  Variable t : target.
  Hypothesis Ht : good_target t.
  Notation P := (t_page t).

  Lemma fdw_store {E} a b : fdw (OsModel.store (E:=E) t a b).
  Proof. intros w. unfold OsModel.store. destruct (w_vm w _) as [e|]; [|reflexivity]. destruct (negb _); [reflexivity|]. cbv zeta. destruct (_ <=? _); [reflexivity|].
    destruct (p_shared e); [|reflexivity]. cbn [snd]. destruct (_ <? _); reflexivity. Qed.
  Lemma fdw_stat fd : fdw (sys_fstat fd).
  Proof. apply fdw_ask. intros a w. destruct (w_fd w fd); reflexivity. Qed.
  Lemma fdw_len fd : fdw (file_len fd).
  Proof. intros w. unfold file_len. pose proof (fdw_stat fd w) as H. destruct (sys_fstat fd w) as [[a|e| | |] w1]; exact H. Qed.
  Lemma fdw_resize fd sz : fdw (resize_to t fd sz).
  Proof.
    apply fdw_bind; [|intros _; apply fdw_ret]. apply fdw_io. intros w. unfold file_set_len. destruct (_ <? _); [reflexivity|].
    assert (H : fdw (sys_ftruncate t fd (as_u64 sz))).
    { apply fdw_ask. intros a v. destruct (_ <? 0); [reflexivity|]. destruct (w_fd v fd) as [f|]; [|reflexivity]. destruct (negb _); reflexivity. }
    specialize (H w). destruct (sys_ftruncate t fd (as_u64 sz) w) as [[a|e| | |] w1]; exact H.
  Qed.
  Lemma fdw_vsize o fd flen : fdw (vsize t o fd flen).
  Proof. unfold vsize. destruct (op_resize o); try apply fdw_resize; try apply fdw_ret; destruct (_ <? _); first [apply fdw_resize|apply fdw_ret]. Qed.
  Lemma fdly_create file pr hi lo : fdly (create_mapping t file pr hi lo).
  Proof.
    apply fdly_call. intros a f s. cbv zeta. repeat match goal with
      | |- context [match ?x with Some _ => _ | None => _ end] => destruct x
      | |- context [if ?b then _ else _] => destruct b
      | |- context [match ?x with PageReadOnly => _ | _ => _ end] => destruct x
      end; reflexivity.
  Qed.
  Lemma fdly_map h acc hi lo len at_ : fdly (map_view t h acc hi lo len at_).
  Proof.
    apply fdly_call. intros a f s. cbv zeta. repeat match goal with
      | |- context [match ?x with Some _ => _ | None => _ end] => destruct x
      | |- context [if ?b then _ else _] => destruct b
      end; reflexivity.
  Qed.
  Lemma fdly_unmap a : fdly (unmap_view t a).
  Proof. apply fdly_call. intros _ _ s. destruct (n_view s a); reflexivity. Qed.
  Lemma fdly_alloc len : fdly (virtual_alloc t len).
  Proof. apply fdly_call. intros a f s. cbv zeta. destruct (_ <=? _); [reflexivity|]. destruct (_ || _); reflexivity. Qed.
  Lemma fdly_free a : fdly (virtual_free t a).
  Proof. apply fdly_call. intros _ _ s. destruct (n_resv s a); reflexivity. Qed.
  Lemma fdly_pages c a len k : (forall x y, fdly (k x y)) -> fdly (on_pages t c a len k).
  Proof. intros H. apply fdly_call. intros _ _ s. cbv zeta. destruct (len <=? 0); [reflexivity|]. destruct (mapped_range _ _ _); [apply H|reflexivity]. Qed.
  Definition page_fdly (f : Z -> Z -> WT error unit) : Prop := forall a len, fdly (f a len).
  Lemma fdly_protect p : page_fdly (fun a l => win_protect t a l p).
  Proof. intros a l. apply fdly_win, fdly_pages. intros x n s. destruct (forallb _ _); reflexivity. Qed.
  Lemma fdly_lock : page_fdly (win_lock t).
  Proof. intros a l. apply fdly_win, fdly_pages. intros x n s. reflexivity. Qed.
  Lemma fdly_unlock : page_fdly (win_unlock t).
  Proof. intros a l. apply fdly_win, fdly_pages. intros x n s. destruct (forallb _ _); reflexivity. Qed.
  Lemma fdly_flush fd mode : page_fdly (fun a l => win_flush t a fd l mode).
  Proof.
    intros a l. apply fdly_bind.
    - apply fdly_win. intros s. unfold flush_view. apply fdly_pages. intros x n s1. reflexivity.
    - intros _. destruct mode; [|apply fdly_out]. apply fdly_win, fdly_call. intros _ _ s. destruct (w_fd (n_w s) fd) as [x|]; [|reflexivity]. destruct (negb _); reflexivity.
  Qed.
  Lemma fdly_advise adv : page_fdly (fun a l => win_advise a l adv).
  Proof. intros a l s. reflexivity. Qed.
  Lemma fdly_whole m f : page_fdly f -> fdly (wwhole t m f).
  Proof. intros H. apply fdly_bind; [apply fdly_out|]. intros b. apply H. Qed.
  Lemma fdly_ranged op m off len f : page_fdly f -> fdly (wranged t op m off len f).
  Proof. intros H. apply fdly_bind; [apply fdly_out|]. intros e. destruct (_ <? _); [apply fdly_out|]. apply fdly_bind; [apply fdly_out|]. intros b. apply H. Qed.
  Lemma fdly_convert m f : fdly f -> fdly (wconvert m f).
  Proof. intros H s. specialize (H s). unfold wconvert. destruct (f s) as [[[]|e| | |] s1]; exact H. Qed.
  Lemma fdly_drop m : fdly (wdrop t m).
  Proof.
    intros s. unfold wdrop. destruct (0 <? m_len m); [|reflexivity]. destruct (size_bounds _ _ _ _) as [[p l]|e| | |]; try reflexivity.
    pose proof (fdly_unmap p s) as H. unfold win_unmap. destruct (unmap_view t p s) as [[[]|e| | |] s1]; exact H.
  Qed.
  Lemma fdly_ring_drop r : fdly (win_ring_drop t r).
  Proof.
    intros s. unfold win_ring_drop.
    pose proof (fdly_bind _ _ (fdly_win RingDeallocate _ (fdly_unmap (ptr_add t (ra_ptr r) (ra_len r)))) (fun _ => fdly_none _ (fdly_unmap (ra_ptr r))) s) as H.
    unfold win_unmap_ring. destruct (wbind _ _ s) as [[[]|e| | |] s1]; exact H.
  Qed.
  Notation gfd g := (w_fd (n_w (g_s g))).
  Lemma act_fds a g fd : calm_act a = true -> a <> AClose fd -> gfd (snd (act_step t a g)) fd = gfd g fd.
  Proof.
    intros C Ne. assert (Wm : forall k f, (forall v, gfd (snd (f v)) fd = gfd g fd) -> gfd (snd (with_map g k f)) fd = gfd g fd).
    { intros k f H. unfold with_map. destruct (g_tab g k) as [[v|r o]|]; auto. }
    assert (Wu : forall k f, (forall v, gfd (snd (f v)) fd = gfd g fd) -> gfd (snd (with_mut g k f)) fd = gfd g fd).
    { intros k f H. apply Wm. intros v. destruct (v_mut v); auto. }
    assert (Pl : forall m : WT error unit, fdly m -> gfd (snd (plain g (m (g_s g)))) fd = gfd g fd) by (intros m H; rewrite plain_state, (H (g_s g)); reflexivity).
    destruct a; try discriminate C; cbn [act_step].
    - cbn. rewrite put_other; [reflexivity|]. intros ->. congruence.
    - apply Wm. intros v. destruct (v_mut v); [reflexivity|].
      pose proof (fdly_convert (v_map v) _ (fdly_whole (v_map v) _ (fdly_protect ReadWrite)) (g_s g)) as H. unfold winto_map_mut.
      destruct (wconvert _ _ (g_s g)) as [r s']. erewrite finish_state; [exact (f_equal (fun z => z fd) H)|reflexivity|reflexivity].
    - apply Wu. intros v.
      pose proof (fdly_convert (v_map v) _ (fdly_whole (v_map v) _ (fdly_protect ReadWrite)) (g_s g)) as H. unfold winto_map.
      destruct (wconvert _ _ (g_s g)) as [r s']. erewrite finish_state; [exact (f_equal (fun z => z fd) H)|reflexivity|reflexivity].
    - destruct (g_tab g k) as [[v|r o]|]; [| |reflexivity]; unfold reads; (erewrite finish_state; [|reflexivity|reflexivity]).
      + assert (H : fdly (wget t (v_map v) i)) by (apply fdly_lift; intros w; unfold map_get; destruct (_ && _); reflexivity). exact (f_equal (fun z => z fd) (H (g_s g))).
      + unfold wring_get. destruct (_ && _); reflexivity.
    - destruct (g_tab g k) as [[v|r o]|]; [| |reflexivity].
      + destruct (v_mut v); [|reflexivity]. apply Pl. apply fdly_lift. intros w. unfold map_set. destruct (_ && _); [apply fdw_store|reflexivity].
      + apply Pl. apply fdly_lift. intros w. destruct (_ && _); [apply fdw_store|reflexivity].
    - apply Wu. intros v. apply Pl, fdly_whole, fdly_flush.
    - apply Wu. intros v. apply Pl, fdly_ranged, fdly_flush.
    - apply Wm. intros v. apply Pl, fdly_whole, fdly_advise.
    - apply Wm. intros v. apply Pl, fdly_ranged, fdly_advise.
    - apply Wm. intros v. apply Pl, fdly_whole, fdly_lock.
    - apply Wm. intros v. apply Pl, fdly_ranged, fdly_lock.
    - apply Wm. intros v. apply Pl, fdly_whole, fdly_unlock.
    - apply Wm. intros v. apply Pl, fdly_ranged, fdly_unlock.
    - destruct (g_tab g k) as [x|]; [|reflexivity].
      assert (H : gfd {| g_s := snd (match x with TMap v => wdrop t (v_map v) (g_s g) | TRing r _ => win_ring_drop t r (g_s g) end); g_tab := g_tab g; g_cnt := 0 |} = gfd g).
      { cbn. destruct x as [v|r o]; [apply fdly_drop|apply fdly_ring_drop]. }
      destruct (match x with TMap v => _ | TRing r _ => _ end) as [r s']. erewrite finish_state; [exact (f_equal (fun z => z fd) H)|reflexivity|reflexivity].
    - cbn [snd g_s g_set]. destruct (wothers_space t e (g_s g)) as (_ & _ & _ & _ & _ & _ & ->). rewrite others_fd. reflexivity.
  Qed.
  Lemma run_fds hs fd : forall g, Forall (fun a => calm_act a = true) hs -> ~ In (AClose fd) hs -> gfd (act_run t hs g) fd = gfd g fd.
  Proof.
    induction hs as [|a hs IH]; intros g F N; [reflexivity|]. apply Forall_cons_iff in F as [C F]. cbn [act_run]. rewrite IH; [|exact F|intros I; apply N; right; exact I].
    apply act_fds; [exact C|]. intros ->. apply N. left. reflexivity.
  Qed.

  (** ** The stages *)
  Definition out_file (x : woutcome) : option Z :=
    match x with
    | WMore pd => wpd_file pd
    | WMadeFile _ true _ fd _ _ => Some fd
    | WOver (WTMap (Ret (GFile _ fd))) => Some fd
    | _ => None
    end.
  Definition wfails (pd : wpend) : Prop := match pd with VClose _ (Ret _) => False | _ => True end.
  Definition out_fails (x : woutcome) : Prop := match x with WMore pd => wfails pd | _ => True end.
  Definition files_next (s s' : win) (old new : option Z) : Prop :=
    (w_fd (n_w s') = w_fd (n_w s) /\ new = old) \/
    (exists fd f, old = None /\ new = Some fd /\ w_fd (n_w s) fd = None /\ w_fd (n_w s') = put (w_fd (n_w s)) fd (Some f)) \/
    (exists fd, old = Some fd /\ new = None /\ w_fd (n_w s') = put (w_fd (n_w s)) fd None).
  Lemma advance_files pd s : wf (n_w s) -> wfails pd ->
    files_next s (snd (wadvance t pd s)) (wpd_file pd) (out_file (fst (wadvance t pd s))) /\ out_fails (fst (wadvance t pd s)).
  Proof.
    intros W Fl. pose (own_fd := fun (own : bool) (fd : Z) => if own then Some fd else None).
    assert (Vf : forall A own fd (r : out error A), (forall a, r <> Ret a) -> out_file (vfail own fd r) = own_fd own fd /\ out_fails (vfail own fd r)).
    { intros A own fd r Hr. unfold vfail, own_fd. destruct r; [destruct (Hr _ eq_refl)|..]; destruct own; cbn; auto. }
    assert (Th : forall A (x : out error A * win) own fd next, w_fd (n_w (snd x)) = w_fd (n_w s) -> (forall a, out_file (next a) = own_fd own fd /\ out_fails (next a)) ->
      files_next s (snd (wthen (vfail own fd) x next)) (own_fd own fd) (out_file (fst (wthen (vfail own fd) x next))) /\ out_fails (fst (wthen (vfail own fd) x next))).
    { intros A [r s'] own fd next E Hn. cbn [snd] in E. destruct r as [a|e| | |]; cbn [wthen fst snd].
      - destruct (Hn a) as [-> Q]. split; [left; auto|exact Q].
      - destruct (Vf A own fd (Err e) ltac:(discriminate)) as [-> Q]. split; [left; auto|exact Q].
      - destruct (Vf A own fd Panic ltac:(discriminate)) as [-> Q]. split; [left; auto|exact Q].
      - destruct (Vf A own fd Fault ltac:(discriminate)) as [-> Q]. split; [left; auto|exact Q].
      - destruct (Vf A own fd Blocked ltac:(discriminate)) as [-> Q]. split; [left; auto|exact Q]. }
    assert (Pn : forall s' x, w_fd (n_w s') = w_fd (n_w s) -> out_file x = None -> out_fails x -> files_next s s' None (out_file x) /\ out_fails x).
    { intros s' x E Ex Q. split; [left; rewrite Ex; auto|exact Q]. }
    assert (Pt : forall A (x : out error A * win) fail next, w_fd (n_w (snd x)) = w_fd (n_w s) -> (forall r, out_file (fail r) = None /\ out_fails (fail r)) ->
      (forall a, out_file (next a) = None /\ out_fails (next a)) -> files_next s (snd (wthen fail x next)) None (out_file (fst (wthen fail x next))) /\ out_fails (fst (wthen fail x next))).
    { intros A [r s'] fail next E Hf Hn. cbn [snd] in E. destruct r as [a|e| | |]; cbn [wthen fst snd]; (apply Pn; [exact E|first [apply Hn|apply Hf]|first [apply Hn|apply Hf]]). }
    assert (Ow : forall own fd, own_fd own fd = if own then Some fd else None) by reflexivity.
    assert (Wf : forall A r, out_file (WOver (WTMap (@wfailure A got r))) = None /\ out_fails (WOver (WTMap (@wfailure A got r)))) by (intros A [a|e| | |]; split; try reflexivity; exact Logic.I).
    destruct pd; cbn [wadvance wpd_file] in *.
    - (* VOpen *)
      destruct (lift (io_call (file_open t (op_open o) path)) s) as [r s'] eqn:E. apply lift_inv in E as (w' & E & ->). unfold io_call in E.
      destruct (file_open t (op_open o) path (n_w s)) as [r1 w1] eqn:E1. assert (w1 = w') by (destruct r1; injection E; auto). subst w1.
      apply file_open_spec in E1. destruct r1 as [fd|e| | |]; try contradiction; injection E as <-; cbn [wthen fst snd].
      + destruct E1 as [_ E1]. apply (open_spec _ _ _ _ _ _ _ _ _ W) in E1 as (_ & Fr & ob & Ef & _). split; [|exact Logic.I]. right. left. cbn. eauto 8.
      + apply Pn; [exact (q_fd _ _ E1)|reflexivity|exact Logic.I].
    - apply (Th _ _ own fd); [apply fdly_lift, fdw_bind; [apply fdw_io, fdw_len|intros; apply fdw_ret]|]. intros a. destruct own; split; try reflexivity; exact Logic.I.
    - apply (Th _ _ own fd); [apply fdly_lift; destruct (_ && _); [apply fdw_resize|apply fdw_ret]|]. intros a. destruct own; split; try reflexivity; exact Logic.I.
    - apply (Th _ _ own fd); [apply fdly_lift, fdw_vsize|]. intros a. destruct own; split; try reflexivity; exact Logic.I.
    - (* VCreate *)
      assert (Bad : forall r : out error (option (Z * Z * Z * Z)), (forall a, r <> Ret a) -> files_next s s (own_fd own fd) (out_file (vfail own fd r)) /\ out_fails (vfail own fd r)).
      { intros r Hr. destruct (Vf _ own fd r Hr) as [-> Q]. split; [left; auto|exact Q]. }
      destruct (vplan t o flen) as [[[[[mapoff maplen] d] len]|]|e| | |]; try (apply Bad; discriminate).
      + apply (Th _ _ own fd); [apply fdly_win, fdly_create|]. intros a. destruct own; split; try reflexivity; exact Logic.I.
      + split; [left|exact Logic.I]. split; [reflexivity|]. destruct own; reflexivity.
    - (* VView *)
      assert (Bad : forall r : out error Z, (forall a, r <> Ret a) -> files_next s s (own_fd own fd) (out_file (vfail own fd r)) /\ out_fails (vfail own fd r)).
      { intros r Hr. destruct (Vf _ own fd r Hr) as [-> Q]. split; [left; auto|exact Q]. }
      destruct (uadd (E:=error) t len d) as [maplen|e| | |]; try (apply Bad; discriminate).
      pose proof (fdly_win MapFileView _ (fdly_map h (snd (protect_pair (op_protect o))) (hi_dword mapoff) (lo_dword mapoff) maplen 0) s) as E.
      unfold handle_view. destruct (win_call _ _ s) as [r s']. split; [left|exact Logic.I]. cbn in *. auto.
    - (* VDone *)
      cbn [fst snd]. destruct r as [ptr|e| | |]; [split; [left|exact Logic.I]; split; [reflexivity|destruct own; reflexivity]|..];
        (match goal with |- context [vfail own fd ?r] => destruct (Vf _ own fd r ltac:(discriminate)) as [-> Q] end); (split; [left; split; [reflexivity|destruct own; reflexivity]|exact Q]).
    - (* VClose *)
      destruct r as [g|e| | |]; [destruct Fl|..]; (split; [right; right; exists fd; cbn; auto|exact Logic.I]).
    - apply Pt; [apply fdly_win, fdly_create|apply Wf|]. intros a. split; [reflexivity|exact Logic.I].
    - unfold handle_view. pose proof (fdly_win MapAnonymousView _ (fdly_map h (snd (protect_pair (op_protect o))) (hi_dword 0) (lo_dword 0) total 0) s) as E.
      destruct (win_call _ _ s) as [r s']. apply Pn; [exact E|reflexivity|exact Logic.I].
    - cbn [fst snd]. destruct r; (apply Pn; [reflexivity|reflexivity|exact Logic.I]).
    - apply Pt; [apply fdly_win, fdly_create| |]; intros a; (split; [reflexivity|exact Logic.I]).
    - apply Pt; [apply fdly_win, fdly_alloc| |]; intros a; (split; [reflexivity|exact Logic.I]).
    - apply Pt; [apply fdly_none, fdly_free| |]; intros a; (split; [reflexivity|exact Logic.I]).
    - unfold handle_view. pose proof (fdly_win RingPrimary _ (fdly_map h MapReadWrite (hi_dword 0) (lo_dword 0) len pg) s) as E.
      destruct (win_call _ _ s) as [[r|e| | |] s']; unfold kretry; try destruct more; (apply Pn; [exact E|reflexivity|exact Logic.I]).
    - unfold handle_view. pose proof (fdly_win RingSecondary _ (fdly_map h MapReadWrite (hi_dword 0) (lo_dword 0) len (ptr_add t pg len)) s) as E.
      destruct (win_call _ _ s) as [[r|e| | |] s']; (apply Pn; [exact E|reflexivity|exact Logic.I]).
    - pose proof (fdly_none _ (fdly_unmap pg) s) as E. destruct (no_result _ s) as [[r|e'| | |] s']; unfold kretry; try destruct more; (apply Pn; [exact E|reflexivity|exact Logic.I]).
    - cbn [fst snd]. destruct r; (apply Pn; [reflexivity|reflexivity|exact Logic.I]).
    - pose proof (fdly_win RingDeallocate _ (fdly_unmap (ptr_add t (ra_ptr r) (ra_len r))) s) as E. destruct (win_call _ _ s) as [[x|e| | |] s']; (apply Pn; [exact E|reflexivity|exact Logic.I]).
    - pose proof (fdly_none _ (fdly_unmap (ra_ptr r)) s) as E. destruct (no_result _ s) as [[x|e| | |] s']; (apply Pn; [exact E|reflexivity|exact Logic.I]).
  Qed.

  (** ** The accounts *)
  Definition acc (W : Z -> Prop) (D : Z -> Prop) (b : Z -> option Z) : Prop :=
    (forall fd, W fd <-> D fd \/ exists i, b i = Some fd) /\ (forall i fd, b i = Some fd -> ~ D fd) /\ (forall i j fd, b i = Some fd -> b j = Some fd -> i = j).
  Lemma acc_move (W W' : Z -> option fdent) D b tid new kept (G : Z -> Prop) b' D' : acc (fun x => W x <> None) D b ->
    (W' = W /\ new = b tid) \/
    (exists fd f, b tid = None /\ new = Some fd /\ W fd = None /\ W' = put W fd (Some f)) \/
    (exists fd, b tid = Some fd /\ new = None /\ W' = put W fd None) ->
    ((kept = new /\ forall fd, ~ G fd) \/ (kept = None /\ forall fd, G fd <-> new = Some fd)) ->
    (forall i, b' i = if i =? tid then kept else b i) -> (forall fd, D' fd <-> D fd \/ G fd) -> acc (fun x => W' x <> None) D' b'.
  Proof.
    intros (A1 & A2 & A3) M K Hb Hd.
    assert (Bt : forall fd, (exists i, b i = Some fd) <-> b tid = Some fd \/ exists i, i <> tid /\ b i = Some fd).
    { intros fd. split.
      - intros [i H]. destruct (Z.eq_dec i tid) as [->|N]; [auto|eauto].
      - intros [H|(i & _ & H)]; eauto. }
    assert (Bt' : forall fd, (exists i, b' i = Some fd) <-> kept = Some fd \/ exists i, i <> tid /\ b i = Some fd).
    { intros fd. split.
      - intros [i H]. rewrite Hb in H. destruct (Z.eqb_spec i tid) as [e|N]; [auto|right; exists i; auto].
      - intros [H|(i & N & H)]; [exists tid; rewrite Hb, Z.eqb_refl; exact H|exists i; rewrite Hb, (proj2 (Z.eqb_neq i tid) N); exact H]. }
    assert (KG : forall fd, kept = Some fd \/ G fd <-> new = Some fd).
    { intros fd. destruct K as [[-> N]|[-> N]].
      - split; [intros [H|H]; [exact H|destruct (N fd H)]|auto].
      - split; [intros [H|H]; [discriminate H|apply N, H]|]. intros H. right. apply N, H. }
    assert (Ex : forall fd, kept = Some fd -> ~ G fd).
    { intros fd H1 H2. destruct K as [[_ N]|[N _]]; [exact (N fd H2)|congruence]. }
    assert (Wn : forall fd, W' fd <> None <-> D fd \/ new = Some fd \/ exists i, i <> tid /\ b i = Some fd).
    { intros fd. destruct M as [[-> ->]|[(x & f & B1 & -> & B3 & ->)|(x & B1 & -> & ->)]].
      - rewrite A1, Bt. tauto.
      - unfold put. destruct (Z.eqb_spec fd x) as [->|N].
        + split; [intros _; right; left; reflexivity|discriminate].
        + rewrite A1, Bt, B1. split; [intros [H|[H|H]]; [auto|discriminate H|auto]|intros [H|[H|H]]; [auto|congruence|auto]].
      - unfold put. destruct (Z.eqb_spec fd x) as [->|N].
        + split; [congruence|]. intros [H|[H|(i & Ni & H)]]; [exact (False_ind _ (A2 _ _ B1 H))|discriminate H|destruct (Ni (A3 _ _ _ H B1))].
        + rewrite A1, Bt, B1. split; [intros [H|[H|H]]; [auto|congruence|auto]|intros [H|[H|H]]; [auto|discriminate H|auto]]. }
    assert (Nw : forall fd, new = Some fd -> ~ D fd /\ forall i, i <> tid -> b i <> Some fd).
    { intros fd Hn. destruct M as [[_ ->]|[(x & f & B1 & -> & B3 & _)|(x & B1 & -> & _)]]; [| |discriminate Hn].
      - split; [exact (A2 _ _ Hn)|]. intros i N H. exact (N (A3 _ _ _ H Hn)).
      - injection Hn as <-. split; [intros H|intros i _ H]; apply (proj2 (A1 x)); eauto. }
    split; [|split].
    - intros fd. rewrite Wn, Hd, Bt'. specialize (KG fd). tauto.
    - intros i fd H. rewrite Hb in H. rewrite Hd. destruct (Z.eqb_spec i tid) as [->|N].
      + pose proof (proj1 (KG fd) (or_introl H)) as Hn. intros [Q|Q]; [exact (proj1 (Nw fd Hn) Q)|exact (Ex fd H Q)].
      + intros [Q|Q]; [exact (A2 _ _ H Q)|]. exact (proj2 (Nw fd (proj1 (KG fd) (or_intror Q))) i N H).
    - intros i j fd Hi Hj. rewrite Hb in Hi, Hj. destruct (Z.eqb_spec i tid) as [->|Ni], (Z.eqb_spec j tid) as [->|Nj]; [reflexivity| | |exact (A3 _ _ _ Hi Hj)].
      + destruct (proj2 (Nw fd (proj1 (KG fd) (or_introl Hi))) j Nj Hj).
      + destruct (proj2 (Nw fd (proj1 (KG fd) (or_introl Hj))) i Ni Hi).
  Qed.
  Definition busy (s : wtsys) (i : Z) : option Z := match wt_pool s i with Some pd => wpd_file pd | None => None end.
  Lemma busy_iff s i fd : wbusy_file s i fd <-> busy s i = Some fd.
  Proof. unfold wbusy_file, busy. split; [intros (pd & -> & H); exact H|]. destruct (wt_pool s i) as [pd|]; [eauto|discriminate]. Qed.
  Lemma accounted_iff s D : wfiles_accounted s D <-> acc (fun x => w_fd (n_w (wkern s)) x <> None) D (busy s).
  Proof.
    assert (Bi : forall fd, (exists i, wbusy_file s i fd) <-> exists i, busy s i = Some fd) by (intros fd; split; intros [i H]; exists i; apply busy_iff; exact H).
    split.
    - intros H. split; [|split].
      + intros fd. rewrite <- Bi. apply H.
      + intros i fd B. apply (H fd) with i. apply busy_iff, B.
      + intros i j fd B1 B2. apply (H fd); apply busy_iff; assumption.
    - intros (H1 & H2 & H3) fd. split; [rewrite Bi; apply H1|]. split; [intros i B; apply busy_iff in B; eauto|]. intros i j B1 B2. apply busy_iff in B1, B2. eauto.
  Qed.
  Lemma acc_ext (W W' D D' : Z -> Prop) b b' : acc W D b -> (forall fd, W' fd <-> W fd) -> (forall fd, D' fd <-> D fd) -> (forall i, b' i = b i) -> acc W' D' b'.
  Proof.
    intros (A1 & A2 & A3) HW HD Hb. split; [|split].
    - intros fd. rewrite HW, HD, A1. split; (intros [H|[i H]]; [auto|right; exists i; congruence]).
    - intros i fd H. rewrite Hb in H. rewrite HD. eauto.
    - intros i j fd. rewrite !Hb. eauto.
  Qed.

  Lemma call_fds c p fd : wpok t p -> wpcall_ok t c -> wstaged c = false -> c <> WAct (AClose fd) -> gfd (wp_g (snd (wpstep t c p))) fd = gfd (wp_g p) fd.
  Proof.
    intros K Hc Sg Ne. assert (Eg : g_set (wp_g p) (g_s (wp_g p)) = wp_g p) by (destruct (wp_g p); reflexivity).
    assert (Rs : forall k o s' p', wp_g p' = g_set (wp_g p) s' -> run_sets t (wp_g p) k o (g_s (wp_g p)) s' -> gfd (wp_g p') fd = gfd (wp_g p) fd).
    { intros k o s' p' E [(hs & S1 & S2 & S3) _]. rewrite Eg in *. rewrite E, S3. apply run_fds.
      - refine (Forall_impl _ _ S1). intros a (i & b & ->). reflexivity.
      - intros I. rewrite Forall_forall in S1. destruct (S1 _ I) as (i & b & X). discriminate X. }
    destruct c as [a|hint|hint|k o|k o|k]; try discriminate Sg; cbn [wpcall_ok wpstep] in *.
    - destruct (on_maps p a) eqn:O; [|reflexivity]. pose proof (act_fds a (wp_g p) fd) as A. destruct (act_step t a (wp_g p)) as [r g'] eqn:E. apply A; [destruct a; try discriminate Sg; auto|congruence].
    - destruct (wp_ring p k) as [[v|v]|] eqn:Hk; try reflexivity. destruct (wk_ring _ _ K _ _ Hk) as (F & ob & Ho).
      destruct (kring_step t win (wpeek t) (wpoke t) o v (g_s (wp_g p))) as [x [v' s']] eqn:E. cbn [snd].
      destruct (wring_call t Ht _ _ _ _ _ _ _ _ _ _ Ho F (rst_now t _ _ _ (wk_prog _ _ K)) Hc E) as (F' & Ea & R & _). exact (Rs k ob s' (wp_put p s' k (HRing v')) eq_refl R).
    - destruct (wp_ring p k) as [[v|v]|] eqn:Hk; try reflexivity. destruct (wk_ring _ _ K _ _ Hk) as (F & ob & Ho).
      destruct (kiring_step t win (wpeek t) (wpoke t) o v (g_s (wp_g p))) as [x [v' s']] eqn:E. cbn [snd].
      destruct (winf_call t Ht _ _ _ _ _ _ _ _ _ _ Ho F (rst_now t _ _ _ (wk_prog _ _ K)) Hc E) as (F' & Ea & R & _). exact (Rs k ob s' (wp_put p s' k (HInf v')) eq_refl R).
  Qed.

  (** ** Every event *)
  Definition pool_fails (s : wtsys) : Prop := forall tid pd, wt_pool s tid = Some pd -> wfails pd.
  Lemma set_fails s p tid x : pool_fails s -> (forall pd, x = Some pd -> wfails pd) -> pool_fails (wset_pool s p tid x).
  Proof. intros F H i pd. cbn. unfold put. destruct (Z.eqb_spec i tid) as [e|N]; [apply H|apply F]. Qed.
  Lemma set_busy s p tid x i : busy (wset_pool s p tid x) i = if i =? tid then match x with Some pd => wpd_file pd | None => None end else busy s i.
  Proof. unfold busy. cbn. unfold put. destruct (i =? tid); reflexivity. Qed.
  Lemma idle_busy s tid : wt_pool s tid = None -> busy s tid = None.
  Proof. unfold busy. intros ->. reflexivity. Qed.
  Lemma go_files s tid pd D : wf (n_w (wkern s)) -> pool_fails s -> wt_pool s tid = Some pd -> wfiles_accounted s D ->
    wfiles_accounted (snd (wgo t tid pd s)) (fun fd => D fd \/ wgiven (fst (wgo t tid pd s)) fd) /\ pool_fails (snd (wgo t tid pd s)).
  Proof.
    intros Hw F Hp A. rewrite accounted_iff in *. assert (Hb : busy s tid = wpd_file pd) by (unfold busy; rewrite Hp; reflexivity).
    destruct (advance_files pd (wkern s) Hw (F _ _ Hp)) as [N Of]. unfold wgo. destruct (wadvance t pd (wkern s)) as [o x'] eqn:E. cbn [fst snd] in N, Of. rewrite <- Hb in N.
    assert (Mv : forall kept p' y, wkern (wset_pool s p' tid kept) = x' -> 
       ((match kept with Some pd => wpd_file pd | None => None end = out_file o /\ forall fd, ~ wgiven y fd) \/ (kept = None /\ forall fd, wgiven y fd <-> out_file o = Some fd)) ->
       (forall pd', kept = Some pd' -> wfails pd') ->
       acc (fun fd => w_fd (n_w (wkern (wset_pool s p' tid kept))) fd <> None) (fun fd => D fd \/ wgiven y fd) (busy (wset_pool s p' tid kept)) /\ pool_fails (wset_pool s p' tid kept)).
    { intros kept p' y Ek K Kf. split; [|apply set_fails; assumption]. rewrite Ek.
      refine (acc_move _ _ D (busy s) tid (out_file o) _ (wgiven y) _ _ A N _ (set_busy s p' tid kept) _); [|intros fd; reflexivity].
      destruct K as [K|[-> K]]; [left; exact K|right; split; [reflexivity|exact K]]. }
    destruct o as [pd'|mut own op fd ob m|mut op ob m|inf ob pg len|r].
    - apply Mv; [reflexivity|left; split; [reflexivity|intros fd []]|intros pd0 [= <-]; exact Of].
    - apply Mv; [reflexivity| |discriminate]. right. split; [reflexivity|]. intros x. destruct own; cbn; [split; congruence|split; [intros []|discriminate]].
    - apply Mv; [reflexivity| |discriminate]. left. split; [reflexivity|intros fd []].
    - apply Mv; [reflexivity| |discriminate]. left. split; [reflexivity|intros fd []].
    - apply Mv; [reflexivity| |discriminate]. right. split; [reflexivity|]. intros x.
      destruct r as [?|[[| | |? ?]|?| | |]|?|?|]; cbn; try (split; [intros []|discriminate]). all: split; congruence.
  Qed.

  Lemma begin_files s tid p pd D : wt_pool s tid = None -> wkern (wset_pool s p tid (Some pd)) = wkern s -> wpd_file pd = None -> wfails pd -> pool_fails s ->
    wfiles_accounted s D -> wfiles_accounted (wset_pool s p tid (Some pd)) (fun fd => D fd \/ False) /\ pool_fails (wset_pool s p tid (Some pd)).
  Proof.
    intros Hp Ek Hf Hl F A. split; [|apply set_fails; [exact F|intros pd0 [= <-]; exact Hl]]. rewrite accounted_iff in *. rewrite Ek.
    refine (acc_ext _ _ _ _ _ _ A _ _ _); [reflexivity|intros; tauto|]. intros i. rewrite set_busy. destruct (Z.eqb_spec i tid) as [->|N]; [|reflexivity].
    rewrite Hf, (idle_busy _ _ Hp). reflexivity.
  Qed.
  Lemma files_event s0 s D e : wtok t s0 s -> pool_fails s -> wfiles_accounted s D -> wev_ok t e -> (forall fd, e = WECall (WAct (AClose fd)) -> D fd) ->
    wfiles_accounted (snd (wtstep t e s)) (fun fd => (D fd /\ e <> WECall (WAct (AClose fd))) \/ wgiven (fst (wtstep t e s)) fd) /\ pool_fails (snd (wtstep t e s)).
  Proof.
    intros T F A He Cl. pose proof (wtok_wpok t _ _ T) as K. assert (Hw : wf (n_w (wkern s))) by (apply (gk_fam t _ _ _ (tk_g t _ _ T))).
    assert (Id : forall y (Y : forall fd, ~ wgiven y fd), (forall fd, e <> WECall (WAct (AClose fd))) ->
      wfiles_accounted s (fun fd => (D fd /\ e <> WECall (WAct (AClose fd))) \/ wgiven y fd) /\ pool_fails s).
    { intros y Y Ne. split; [|exact F]. rewrite accounted_iff in *. refine (acc_ext _ _ _ _ _ _ A _ _ _); [reflexivity| |reflexivity]. intros fd. specialize (Y fd). specialize (Ne fd). tauto. }
    assert (Nm : forall s' y, (forall fd, e <> WECall (WAct (AClose fd))) -> 
      (wfiles_accounted s' (fun fd => D fd \/ wgiven y fd) /\ pool_fails s') ->
      wfiles_accounted s' (fun fd => (D fd /\ e <> WECall (WAct (AClose fd))) \/ wgiven y fd) /\ pool_fails s').
    { intros s' y Ne [H1 H2]. split; [|exact H2]. rewrite accounted_iff in *. refine (acc_ext _ _ _ _ _ _ H1 _ _ _); [reflexivity| |reflexivity]. intros fd. specialize (Ne fd). tauto. }
    destruct e as [c|tid mut o path|tid mut o fd|tid mut o|tid inf hint|tid k|tid]; cbn [wtstep wev_ok] in *.
    - destruct He as [Hc Sg]. pose proof (fun fd => call_fds c (wt_p s) fd K Hc Sg) as Cf. destruct (wpstep t c (wt_p s)) as [x p'] eqn:E. cbn [fst snd] in *.
      split; [|exact F]. rewrite accounted_iff in *.
      assert (Dc : (exists x, c = WAct (AClose x)) \/ forall x, c <> WAct (AClose x)).
      { destruct c as [a|?|?|? ?|? ?|?]; try (right; discriminate). destruct a; try (right; discriminate). left. eauto. }
      destruct Dc as [[fd ->]|Ne].
      + specialize (Cl fd eq_refl). destruct A as (A1 & A2 & A3).
        assert (Wn : forall x, w_fd (n_w (g_s (wp_g p'))) x = if x =? fd then None else w_fd (n_w (wkern s)) x).
        { intros x0. cbn in E. injection E as <- <-. reflexivity. }
        split; [|split; [|exact A3]].
        * intros x0. cbn [wt_p wgiven]. rewrite Wn. destruct (Z.eqb_spec x0 fd) as [->|N].
          -- split; [congruence|]. intros [[[_ H]|[]]|[i H]]; [congruence|destruct (A2 _ _ H Cl)].
          -- rewrite A1. split; (intros [H|H]; [left|right; exact H]); [left; split; [exact H|congruence]|destruct H as [[H _]|[]]; exact H].
        * intros i x0 H [[Q _]|[]]. exact (A2 _ _ H Q).
      + refine (acc_ext _ _ _ _ _ _ A _ _ _); [| |reflexivity].
        * intros x0. cbn [wt_p]. rewrite (Cf x0 (Ne x0)). reflexivity.
        * intros x0. cbn [wgiven]. specialize (Ne x0). split; [intros [[H _]|[]]; exact H|]. intros H. left. split; [exact H|congruence].
    - unfold wbegin. destruct (wt_pool s tid) as [q|] eqn:Hp; [apply Id; [intros ? []|discriminate]|]. apply Nm; [discriminate|]. apply begin_files; first [exact Logic.I|auto].
    - unfold wbegin. destruct (wt_pool s tid) as [q|] eqn:Hp; [apply Id; [intros ? []|discriminate]|]. apply Nm; [discriminate|]. apply begin_files; first [exact Logic.I|auto].
    - unfold wbegin. destruct (wt_pool s tid) as [q|] eqn:Hp; [apply Id; [intros ? []|discriminate]|].
      destruct (nplan t o) as [[[off len] total]|x| | |]; try (apply Id; [intros ? []|discriminate]). apply Nm; [discriminate|]. apply begin_files; first [exact Logic.I|auto].
    - unfold wbegin. destruct (wt_pool s tid) as [q|] eqn:Hp; [apply Id; [intros ? []|discriminate]|].
      destruct (obind (size_round t (size_alloc t) hint) _) as [[len full]|x| | |]; try (apply Id; [intros ? []|discriminate]). apply Nm; [discriminate|]. apply begin_files; first [exact Logic.I|auto].
    - unfold wbegin. destruct (wt_pool s tid) as [q|] eqn:Hp; [apply Id; [intros ? []|discriminate]|].
      destruct (wp_ring (wt_p s) k) as [h|]; [|apply Id; [intros ? []|discriminate]].
      destruct (g_tab (wp_g (wt_p s)) k) as [x|]; [|apply Id; [intros ? []|discriminate]]. apply Nm; [discriminate|]. apply begin_files; first [exact Logic.I|auto].
    - destruct (wt_pool s tid) as [pd|] eqn:Hp; [|apply Id; [intros ? []|discriminate]]. apply Nm; [discriminate|]. apply go_files; auto.
  Qed.
  Theorem files_ok s0 s D : wfiles t s0 s D -> wtreached t s0 s /\ wfiles_accounted s D /\ pool_fails s.
  Proof.
    induction 1 as [Fs|s D e H (R & A & F) He Cl].
    - split; [constructor; exact Fs|]. split; [|intros tid pd Q; discriminate Q]. intros fd. cbn. split; [|split].
      + split; [auto|]. intros [Q|(i & pd & Q & _)]; [exact Q|discriminate Q].
      + intros i (pd & Q & _). discriminate Q.
      + intros i j (pd & Q & _). discriminate Q.
    - split; [constructor; assumption|]. exact (files_event s0 s D e (wtreached_ok t Ht _ _ R) F A He Cl).
  Qed.
End Files.
