(** Calls on parts of maps, error operations and descriptors on Windows: what
    the theorems of PropertiesWinMap2.v rest on. *)
From Coq Require Import Lia.
From Verif Require Import Base Spec ErrorModel SizeModel OsModel MapModel MapSpec RingMapModel RingMapSpec SizeProofs OsProofs
  MapProofs MapCreate MapOps MapClaims4 MapClaims5 MirrorProofs RingMapClaims WinModel WinSpec WinProofs WinClaims WinCalls WinMapModel WinMapSpec WinSpace WinKeep WinMapProofs WinAlloc WinThings WinHist WinLeak WinMapClaims WinMapClaims2.

(** ** C73: operations of errors *)
Definition werrs {A} (Q : operation -> Prop) (m : WT error A) : Prop := forall s e s', m s = (Err e, s') -> Q (e_op e).

Lemma werrs_ret {A} Q (x : A) : werrs Q (wret x).
Proof. intros s e s' H. discriminate H. Qed.
Lemma werrs_bind {A B} Q (m : WT error A) (k : A -> WT error B) : werrs Q m -> (forall x, werrs Q (k x)) -> werrs Q (wbind m k).
Proof.
  intros Hm Hk s e s' H. unfold wbind in H. destruct (m s) as [[x|e1| | |] s1] eqn:E; try discriminate H.
  - exact (Hk x _ _ _ H).
  - injection H as <- <-. exact (Hm _ _ _ E).
Qed.
Lemma werrs_call {A} (Q : operation -> Prop) op (m : WT Z A) : Q op -> werrs Q (win_call op m).
Proof.
  intros Hq s e s' H. unfold win_call in H. destruct (m s) as [[x|e1| | |] s1]; try discriminate H. injection H as <- <-. exact Hq.
Qed.
Lemma werrs_none {A} Q (m : WT Z A) : werrs Q (no_result m).
Proof. intros s e s' H. unfold no_result in H. destruct (m s) as [[x|e1| | |] s1]; discriminate H. Qed.
Lemma werrs_if {A} Q (b : bool) (m1 m2 : WT error A) : werrs Q m1 -> werrs Q m2 -> werrs Q (if b then m1 else m2).
Proof. destruct b; auto. Qed.
Lemma werrs_wout {A} Q (x : out error A) : no_err x -> werrs Q (wout x).
Proof. intros N s e s' H. injection H as H _. elim (N e H). Qed.
Lemma werrs_fail {A} (Q : operation -> Prop) e : Q (e_op e) -> werrs Q (wout (A:=A) (Err e)).
Proof. intros N s e' s' H. injection H as <- _. exact N. Qed.
Lemma werrs_lift {A} (Q : operation -> Prop) op (m : ST error A) : Q op -> errs op m -> werrs Q (lift m).
Proof.
  intros Hq M s e s' H. unfold lift in H. destruct (m (n_w s)) as [r w] eqn:E. injection H as -> _. rewrite (M _ _ _ E). exact Hq.
Qed.
Lemma werrs_scoped {A} Q h (m : WT error A) : werrs Q m -> werrs Q (scoped h m).
Proof. intros M s e s' H. unfold scoped in H. destruct (m s) as [r s1] eqn:E. injection H as -> _. exact (M _ _ _ E). Qed.
Lemma werrs_closing {A} Q fd (m : WT error A) : werrs Q m -> werrs Q (wclosing fd m).
Proof.
  intros M s e s' H. unfold wclosing in H. destruct (m s) as [r s1] eqn:E. destruct r; injection H as X _; try discriminate X. subst. eapply M, E.
Qed.

Section Errors.
  Variable t : target.
  Lemma werrs_map_if (Q : operation -> Prop) o fd : Q MapFile -> Q MapFileHandle -> Q MapFileView -> werrs Q (wmap_if t o fd).
  Proof.
    intros Q1 Q2 Q3. unfold wmap_if.
    apply werrs_bind; [apply (werrs_lift Q MapFile _ Q1); apply errs_bind; [apply errs_io|intros; apply errs_ret]|intros flen].
    assert (R : forall z, errs MapFile (resize_to t fd z)) by (intros z; unfold resize_to; apply errs_bind; [apply errs_io|intros; apply errs_ret]).
    apply werrs_bind; [apply (werrs_lift Q MapFile _ Q1); apply errs_if; [apply R|apply errs_ret]|intros f2].
    apply werrs_bind; [apply (werrs_lift Q MapFile _ Q1); destruct (op_resize o); try apply errs_if; auto using errs_ret|intros f3].
    apply werrs_if; [apply werrs_ret|]. apply werrs_bind; [apply werrs_wout; unfold usub; apply ne_wrap|intros mx].
    destruct (extent_len (op_len o) mx); [|apply werrs_ret].
    apply werrs_bind; [apply werrs_wout, ne_truncate|intros mo]. apply werrs_bind; [apply werrs_wout, ne_wrap|intros d].
    apply werrs_bind; [apply werrs_wout, ne_wrap|intros ml]. apply werrs_bind; [|intros; apply werrs_ret].
    unfold win_map_file. destruct (protect_pair (op_protect o)) as [pr acc].
    apply werrs_bind; [apply werrs_call, Q2|intros h]. apply werrs_scoped, werrs_call, Q3.
  Qed.
  Lemma werrs_map (Q : operation -> Prop) o fd : Q MapFile -> Q MapFileHandle -> Q MapFileView -> werrs Q (wmap t o fd).
  Proof.
    intros Q1 Q2 Q3. unfold wmap. apply werrs_bind; [apply werrs_map_if; assumption|]. intros [m|]; [apply werrs_ret|apply werrs_fail, Q1].
  Qed.
  Lemma werrs_open_if (Q : operation -> Prop) o path : Q MapFile -> Q MapFileHandle -> Q MapFileView -> werrs Q (wopen_if t o path).
  Proof.
    intros Q1 Q2 Q3. unfold wopen_if. apply werrs_bind; [apply (werrs_lift Q MapFile _ Q1), errs_io|intros f].
    apply werrs_bind; [apply werrs_closing, werrs_map_if; assumption|intros; apply werrs_ret].
  Qed.
  Lemma werrs_open (Q : operation -> Prop) o path : Q MapFile -> Q MapFileHandle -> Q MapFileView -> werrs Q (wopen t o path).
  Proof.
    intros Q1 Q2 Q3. unfold wopen. apply werrs_bind; [apply (werrs_lift Q MapFile _ Q1), errs_io|intros f].
    apply werrs_bind; [apply werrs_closing, werrs_map; assumption|intros; apply werrs_ret].
  Qed.
  Lemma werrs_alloc (Q : operation -> Prop) o : Q MapAnonymousHandle -> Q MapAnonymousView -> werrs Q (walloc t o).
  Proof.
    intros Q1 Q2. unfold walloc. apply werrs_bind; [apply werrs_wout, ne_offset|intros off].
    apply werrs_bind.
    { destruct (op_len o); try apply werrs_ret; apply werrs_wout; ne; apply ne_round. }
    intros len. apply werrs_bind; [apply werrs_wout, ne_wrap|intros tot]. apply werrs_bind; [|intros; apply werrs_ret].
    unfold win_map_anon. destruct (protect_pair (op_protect o)) as [pr acc].
    apply werrs_bind; [apply werrs_call, Q1|intros h]. apply werrs_scoped, werrs_call, Q2.
  Qed.
  Lemma werrs_ring (Q : operation -> Prop) hint : Q RingAllocate -> Q RingPrimary -> Q RingSecondary -> werrs Q (win_ring_new t hint).
  Proof.
    intros Q1 Q2 Q3. unfold win_ring_new. apply werrs_bind; [apply werrs_wout, ne_round|intros len]. apply werrs_bind; [|intros; apply werrs_ret].
    unfold win_map_ring. apply werrs_bind; [apply werrs_wout, ne_wrap|intros full]. apply werrs_bind; [apply werrs_call, Q1|intros h].
    apply werrs_scoped. generalize 5%nat as more.
    assert (MR : forall pg, werrs Q (map_ring_handle t h len pg)).
    { intros pg. unfold map_ring_handle. apply werrs_bind; [apply werrs_call, Q2|intros a]. intros s e s' H.
      destruct (handle_view t h RingSecondary MapReadWrite 0 len (ptr_add t pg len) s) as [[x|e1| | |] s1] eqn:E; try discriminate H.
      revert H. refine (werrs_bind Q _ _ (werrs_none Q _) _ s1 e s'). intros u. apply werrs_fail.
      exact (werrs_call Q RingSecondary _ Q3 _ _ _ E). }
    induction more as [|n IH]; cbn [ring_loop].
    all: apply werrs_bind; [unfold reserve; apply werrs_bind; [apply werrs_call, Q1|intros; apply werrs_bind; [apply werrs_none|intros; apply werrs_ret]]|intros pg].
    all: intros s e s' H; destruct (map_ring_handle t h len pg s) as [[x|e1| | |] s1] eqn:E; try discriminate H.
    - injection H as <- <-. exact (MR pg _ _ _ E).
    - exact (IH _ _ _ H).
  Qed.
  Lemma werrs_whole Q m f : (forall p l, werrs Q (f p l)) -> werrs Q (wwhole t m f).
  Proof. intros H. unfold wwhole. apply werrs_bind; [apply werrs_wout, ne_bounds|intros; apply H]. Qed.
  Lemma werrs_ranged (Q : operation -> Prop) op m off len f : Q op -> (forall p l, werrs Q (f p l)) -> werrs Q (wranged t op m off len f).
  Proof.
    intros Qo H. unfold wranged. apply werrs_bind; [apply werrs_wout, ne_wrap|intros e]. apply werrs_if; [apply werrs_fail, Qo|].
    apply werrs_bind; [apply werrs_wout, ne_bounds|intros; apply H].
  Qed.
  Lemma werrs_convert (Q : operation -> Prop) m f s e m' s' : werrs Q f -> wconvert m f s = (Err (e, m'), s') -> Q (e_op e).
  Proof.
    intros F H. unfold wconvert in H. destruct (f s) as [[x|e1| | |] s1] eqn:E; try discriminate H.
    assert (X : e1 = e) by (injection H; auto). subst e1. exact (F _ _ _ E).
  Qed.
  Lemma werrs_protect (Q : operation -> Prop) p pg l : Q OpProtect -> werrs Q (win_protect t pg l p).
  Proof. intros H. unfold win_protect. apply werrs_call, H. Qed.
  Lemma werrs_flush (Q : operation -> Prop) pg fd l mode : Q OpFlush -> werrs Q (win_flush t pg fd l mode).
  Proof.
    intros H. unfold win_flush. apply werrs_bind; [apply werrs_call, H|intros]. destruct mode; [apply werrs_call, H|apply werrs_ret].
  Qed.
  Lemma plain_err g (m : WT error unit) Q e g' : werrs Q m -> plain g (m (g_s g)) = (Err e, g') -> Q (e_op e).
  Proof.
    intros M H. unfold plain, finish in H. destruct (m (g_s g)) as [[x|e1| | |] s1] eqn:E; cbn in H; try discriminate H.
    injection H as <- _. exact (M _ _ _ E).
  Qed.
  Lemma wget_no_err m i s e s' : wget t m i s <> (Err e, s').
  Proof. unfold wget, lift. intros H. destruct (map_get t m i (n_w s)) as [r w] eqn:E. injection H as -> _. exact (get_no_err t m i _ _ _ E). Qed.
  Lemma wset_no_err m i b s e s' : wset t m i b s <> (Err e, s').
  Proof. unfold wset, lift. intros H. destruct (map_set t m i b (n_w s)) as [r w] eqn:E. injection H as -> _. exact (set_no_err t m i b _ _ _ E). Qed.
  Lemma wring_get_no_err r i s e s' : wring_get t r i s <> (Err e, s').
  Proof.
    unfold wring_get. destruct ((0 <=? i) && (i <? 2 * ra_len r)); [|discriminate]. unfold OsModel.load.
    destruct (w_vm (n_w s) _) as [x|]; [|discriminate]. destruct (negb (p_r x)); [discriminate|]. destruct (_ <=? _); discriminate.
  Qed.
  Lemma wring_set_no_err r i b s e s' : wring_set t r i b s <> (Err e, s').
  Proof.
    unfold wring_set, lift. destruct ((0 <=? i) && (i <? 2 * ra_len r)); [|discriminate]. unfold OsModel.store.
    destruct (w_vm (n_w s) _) as [x|]; [|discriminate]. destruct (negb (p_w x)); [discriminate|].
    destruct (_ <=? _); [discriminate|]. destruct (p_shared x); discriminate.
  Qed.

  Lemma act_errors a g e g' : act_step t a g = (Err e, g') -> In (e_op e) (act_error a).
  Proof.
    unfold act_step, with_mut, with_map. destruct a; cbn [act_error]; intros H.
    - destruct (wopen_if t o path (g_s g)) as [r s1] eqn:E. destruct r as [x|e1| | |]; cbn in H; try discriminate H.
      assert (e1 = e) by (injection H; auto). subst e1. refine (werrs_open_if (fun o => In o [MapFile; MapFileHandle; MapFileView]) o path _ _ _ _ _ _ E); cbn; auto.
    - destruct (wmap_if t o fd (g_s g)) as [r s1] eqn:E. destruct r as [x|e1| | |]; cbn in H; try discriminate H.
      assert (e1 = e) by (injection H; auto). subst e1. refine (werrs_map_if (fun o => In o [MapFile; MapFileHandle; MapFileView]) o fd _ _ _ _ _ _ E); cbn; auto.
    - destruct (walloc t o (g_s g)) as [r s1] eqn:E. destruct r as [x|e1| | |]; cbn in H; try discriminate H.
      assert (e1 = e) by (injection H; auto). subst e1. refine (werrs_alloc (fun o => In o [MapAnonymousHandle; MapAnonymousView]) o _ _ _ _ _ E); cbn; auto.
    - discriminate H.
    - destruct (g_tab g k) as [[v|r o]|]; try discriminate H. destruct (v_mut v); [discriminate H|].
      destruct (winto_map_mut t (v_map v) (g_s g)) as [r s1] eqn:E. destruct r as [x|[e1 m1]| | |]; cbn in H; try discriminate H.
      assert (e1 = e) by (injection H; auto). subst e1.
      refine (werrs_convert (fun o => In o [OpProtect]) _ _ _ _ _ _ _ E). apply werrs_whole. intros. apply werrs_protect. cbn; auto.
    - destruct (g_tab g k) as [[v|r o]|]; try discriminate H. destruct (v_mut v); [|discriminate H].
      destruct (winto_map t (v_map v) (g_s g)) as [r s1] eqn:E. destruct r as [x|[e1 m1]| | |]; cbn in H; try discriminate H.
      assert (e1 = e) by (injection H; auto). subst e1.
      refine (werrs_convert (fun o => In o [OpProtect]) _ _ _ _ _ _ _ E). apply werrs_whole. intros. apply werrs_protect. cbn; auto.
    - exfalso. destruct (g_tab g k) as [[v|r o]|]; [| |discriminate H]; unfold reads, finish in H.
      + destruct (wget t (v_map v) i (g_s g)) as [[x|e1| | |] s1] eqn:E; cbn in H; try discriminate H. exact (wget_no_err _ _ _ _ _ E).
      + destruct (wring_get t r i (g_s g)) as [[x|e1| | |] s1] eqn:E; cbn in H; try discriminate H. exact (wring_get_no_err _ _ _ _ _ E).
    - exfalso. destruct (g_tab g k) as [[v|r o]|]; [destruct (v_mut v); [|discriminate H]| |discriminate H]; unfold plain, finish in H.
      + destruct (wset t (v_map v) i b (g_s g)) as [[x|e1| | |] s1] eqn:E; cbn in H; try discriminate H. exact (wset_no_err _ _ _ _ _ _ E).
      + destruct (wring_set t r i b (g_s g)) as [[x|e1| | |] s1] eqn:E; cbn in H; try discriminate H. exact (wring_set_no_err _ _ _ _ _ _ E).
    - destruct (g_tab g k) as [[v|r o]|]; try discriminate H. destruct (v_mut v); [|discriminate H].
      refine (plain_err g (wflush t (v_map v) fd mode) (fun o => In o [OpFlush]) e g' _ H). apply werrs_whole. intros. apply werrs_flush. cbn; auto.
    - destruct (g_tab g k) as [[v|r o]|]; try discriminate H. destruct (v_mut v); [|discriminate H].
      refine (plain_err g (wflush_range t (v_map v) fd off len mode) (fun o => In o [OpFlush]) e g' _ H).
      apply werrs_ranged; [cbn; auto|]. intros. apply werrs_flush. cbn; auto.
    - destruct (g_tab g k) as [[v|r o]|]; try discriminate H.
      refine (plain_err g (wadvise t (v_map v) adv) (fun o => In o []) e g' _ H). apply werrs_whole. intros. apply werrs_ret.
    - destruct (g_tab g k) as [[v|r o]|]; try discriminate H.
      refine (plain_err g (wadvise_range t (v_map v) off len adv) (fun o => In o [OpAdvise]) e g' _ H).
      apply werrs_ranged; [cbn; auto|]. intros. apply werrs_ret.
    - destruct (g_tab g k) as [[v|r o]|]; try discriminate H.
      refine (plain_err g (wlock t (v_map v)) (fun o => In o [OpLock]) e g' _ H). apply werrs_whole. intros. apply werrs_call. cbn; auto.
    - destruct (g_tab g k) as [[v|r o]|]; try discriminate H.
      refine (plain_err g (wlock_range t (v_map v) off len) (fun o => In o [OpLock]) e g' _ H).
      apply werrs_ranged; [cbn; auto|]. intros. apply werrs_call. cbn; auto.
    - destruct (g_tab g k) as [[v|r o]|]; try discriminate H.
      refine (plain_err g (wunlock t (v_map v)) (fun o => In o [OpUnlock]) e g' _ H). apply werrs_whole. intros. apply werrs_call. cbn; auto.
    - destruct (g_tab g k) as [[v|r o]|]; try discriminate H.
      refine (plain_err g (wunlock_range t (v_map v) off len) (fun o => In o [OpUnlock]) e g' _ H).
      apply werrs_ranged; [cbn; auto|]. intros. apply werrs_call. cbn; auto.
    - destruct (win_ring_new t hint (g_s g)) as [r s1] eqn:E. destruct r as [x|e1| | |]; cbn in H; try discriminate H.
      assert (e1 = e) by (injection H; auto). subst e1. refine (werrs_ring (fun o => In o [RingAllocate; RingPrimary; RingSecondary]) hint _ _ _ _ _ _ E); cbn; auto.
    - exfalso. destruct (g_tab g k) as [[v|r o]|]; [| |discriminate H].
      + unfold wdrop in H. destruct (0 <? m_len (v_map v)); [|discriminate H].
        pose proof (ne_bounds (E:=error) t (size_alloc t) (m_ptr (v_map v)) (m_len (v_map v))) as N.
        destruct (size_bounds t (size_alloc t) (m_ptr (v_map v)) (m_len (v_map v))) as [[p l]|x| | |]; try discriminate H; [|elim (N x); reflexivity].
        destruct (win_unmap t p l (g_s g)) as [[u|x| | |] s1]; discriminate H.
      + unfold win_ring_drop in H. destruct (win_unmap_ring t (ra_ptr r) (ra_len r) (g_s g)) as [[u|x| | |] s1]; discriminate H.
    - discriminate H.
  Qed.

  (** ** C72: the variants agree *)
  Lemma wmap_agrees o fd s :
    wmap t o fd s = match wmap_if t o fd s with
                    | (Ret (Some m), s') => (Ret m, s')
                    | (Ret None, s') => (Err {| e_repr := RInput InvalidRange; e_op := MapFile |}, s')
                    | (Err e, s') => (Err e, s')
                    | (Panic, s') => (Panic, s')
                    | (Fault, s') => (Fault, s')
                    | (Blocked, s') => (Blocked, s')
                    end.
  Proof. unfold wmap, wbind. destruct (wmap_if t o fd s) as [[[m|]|e| | |] s']; reflexivity. Qed.
  Lemma wopen_agrees o path s :
    wopen t o path s = match wopen_if t o path s with
                       | (Ret (Some m, fd), s') => (Ret (m, fd), s')
                       | (Ret (None, fd), s') => (Err {| e_repr := RInput InvalidRange; e_op := MapFile |},
                                                  with_w s' (set_fd (n_w s') (put (w_fd (n_w s')) fd None)))
                       | (Err e, s') => (Err e, s')
                       | (Panic, s') => (Panic, s')
                       | (Fault, s') => (Fault, s')
                       | (Blocked, s') => (Blocked, s')
                       end.
  Proof.
    unfold wopen, wopen_if, wbind, wclosing. destruct (lift (io_call (file_open t (op_open o) path)) s) as [[fd|e| | |] s1]; try reflexivity.
    rewrite wmap_agrees. destruct (wmap_if t o fd s1) as [[[m|]|e| | |] s']; reflexivity.
  Qed.

  (** ** Conversions *)
  Lemma wconvert_same m f s : match wconvert m f s with (Ret m', _) | (Err (_, m'), _) => m' = m | _ => True end.
  Proof. unfold wconvert. destruct (f s) as [[x|e| | |] s1]; auto. Qed.
End Errors.

Section Claims.
  Variable t : target.
  Hypothesis Ht : good_target t.
  Notation P := (t_page t).
  Notation G := (t_alloc t).
  Notation q := (as_posix t).
  Let HP : 0 < P.
  Proof. exact (pow2_pos _ (proj1 (proj2 Ht))). Qed.
  Let HG : 0 < G.
  Proof. exact (pow2_pos _ (proj1 (proj2 (proj2 Ht)))). Qed.
  Let Hq : posix_target q.
  Proof. exact (posix_of t Ht). Qed.

  (** ** C72: descriptors *)
  Lemma wmap_fds o fd s r s' : wf (n_w s) -> options_ok t o -> wmap_if t o fd s = (r, s') ->
    (forall x, w_fd (n_w s') x = w_fd (n_w s) x) /\ (forall x, w_fs (n_w s') x = w_fs (n_w s) x).
  Proof.
    intros W O H. destruct (wmap_if_spec t Ht o fd s r s' W O H) as [_ M]. destruct (w_fd (n_w s) fd) as [f|].
    - destruct M as (w1 & D & M). cbv zeta in M. pose proof (fdn_touched _ _ _ _ _ D) as T.
      assert (R : same_rest (with_w s w1) s' \/ s' = with_w s w1).
      { destruct r as [[m|]|e| | |]; try contradiction.
        - destruct M as (L & _ & _ & _ & _ & R & _). auto.
        - destruct M as (L & -> & _). auto.
        - left. apply M. }
      destruct R as [R| ->].
      + split; intros x; [rewrite (sr_fd _ _ R)|rewrite (sr_fs _ _ R)]; cbn; [rewrite (tc_fd _ _ _ T)|rewrite (tc_fs _ _ _ T)]; reflexivity.
      + split; intros x; cbn; [rewrite (tc_fd _ _ _ T)|rewrite (tc_fs _ _ _ T)]; reflexivity.
    - destruct M as (e & _ & _ & _ & R & _). split; intros x; [apply R|apply R].
  Qed.
  Lemma wopen_if_fds o path s r s' : wf (n_w s) -> options_ok t o -> wopen_if t o path s = (r, s') ->
    match r with
    | Ret (m, fd) => 0 <= fd /\ w_fd (n_w s) fd = None /\ exists ob, w_fs (n_w s') path = Some ob /\
        (w_fs (n_w s) path = Some ob \/ (w_fs (n_w s) path = None /\ ob = w_next (n_w s))) /\
        forall x, w_fd (n_w s') x = if x =? fd then Some {| fd_obj := ob; fd_w := oo_write (op_open o) |} else w_fd (n_w s) x
    | Err e => forall x, w_fd (n_w s') x = w_fd (n_w s) x
    | _ => False
    end.
  Proof.
    intros W O H. unfold wopen_if in H. unfold wbind at 1, lift, io_call in H.
    destruct (file_open t (op_open o) path (n_w s)) as [x w1] eqn:E.
    pose proof (file_open_keeps t Ht _ _ _ _ _ W E) as K. pose proof (ev_wf _ _ _ _ _ _ K W) as W1.
    pose proof (file_open_spec _ _ _ _ _ _ E) as S. destruct x as [fd|e| | |]; try contradiction.
    2:{ assert (X : r = Err (map_file_err e) /\ s' = with_w s w1) by (injection H; auto). destruct X as [-> ->].
        intros x. cbn. rewrite (q_fd _ _ S). reflexivity. }
    destruct S as [_ S]. change (sys_open q path (oo_write (op_open o)) (oo_create (op_open o) || oo_create_new (op_open o)) (oo_create_new (op_open o))
              (oo_truncate (op_open o) && negb (oo_create_new (op_open o))) (n_w s) = (Ret fd, w1)) in S.
    apply (open_spec q _ _ _ _ _ _ _ _ W) in S as (F0 & Fn & ob & F1 & Fs & _ & Old).
    set (s1 := with_w s w1) in *. unfold wbind, wclosing in H. destruct (wmap_if t o fd s1) as [y s2] eqn:E2.
    destruct (wmap_fds o fd s1 y s2 W1 O E2) as [Fd Ff].
    assert (FD : forall x, w_fd (n_w s2) x = if x =? fd then Some {| fd_obj := ob; fd_w := oo_write (op_open o) |} else w_fd (n_w s) x).
    { intros x. rewrite Fd. cbn. rewrite F1. unfold put. reflexivity. }
    pose proof (map_if_thing t Ht) as MT. clear MT.
    destruct (wmap_if_spec t Ht o fd s1 y s2 W1 O E2) as [_ M].
    assert (NR : match y with Ret _ | Err _ => True | _ => False end).
    { destruct (w_fd (n_w s1) fd); [destruct M as (w3 & _ & M); destruct y; auto|destruct M as (e & -> & _); exact I]. }
    destruct y as [m|e| | |]; try contradiction.
    - assert (X : r = Ret (m, fd) /\ s' = s2) by (injection H; auto). destruct X as [-> ->].
      split; [exact F0|]. split; [exact Fn|]. exists ob. split; [rewrite Ff; exact Fs|]. split; [|exact FD].
      destruct (w_fs (n_w s) path) as [o'|]; [left; f_equal; symmetry; exact (proj1 Old)|right; split; [reflexivity|exact (proj1 (proj2 Old))]].
    - assert (X : r = Err e /\ s' = with_w s2 (snd (sys_close fd (n_w s2)))) by (injection H; auto). destruct X as [-> ->].
      intros x. cbn. unfold put. rewrite FD. destruct (Z.eqb_spec x fd); [subst; auto|reflexivity].
  Qed.
  Lemma wopen_fds o path s r s' : wf (n_w s) -> options_ok t o -> wopen t o path s = (r, s') ->
    match r with
    | Ret (m, fd) => 0 <= fd /\ w_fd (n_w s) fd = None /\ exists ob, w_fs (n_w s') path = Some ob /\
        (w_fs (n_w s) path = Some ob \/ (w_fs (n_w s) path = None /\ ob = w_next (n_w s))) /\
        forall x, w_fd (n_w s') x = if x =? fd then Some {| fd_obj := ob; fd_w := oo_write (op_open o) |} else w_fd (n_w s) x
    | Err e => forall x, w_fd (n_w s') x = w_fd (n_w s) x
    | _ => False
    end.
  Proof.
    intros W O H. rewrite wopen_agrees in H. destruct (wopen_if t o path s) as [r1 s1] eqn:E.
    pose proof (wopen_if_fds _ _ _ _ _ W O E) as F.
    destruct r1 as [[[m|] fd]|e| | |]; try contradiction F; injection H as <- <-; try exact F.
    destruct F as (_ & Fn & ob & _ & _ & F). intros x. cbn. unfold put. rewrite F. destruct (Z.eqb_spec x fd); [subst; auto|reflexivity].
  Qed.

  (** ** C71: ranges *)
  Lemma set_same g : g_set g (g_s g) = g.
  Proof. destruct g. reflexivity. Qed.
  Lemma map_bounds g k v off n : prog_ok t g -> g_tab g k = Some (TMap v) -> 0 <= off -> 0 <= n -> off + n <= m_len (v_map v) ->
    exists a c, size_bounds (E:=error) t P (ptr_add t (m_ptr (v_map v)) off) n = Ret (P * a, P * c) /\
      0 <= a /\ a = (m_ptr (v_map v) + off) / P /\ (0 < n -> a + c = (m_ptr (v_map v) + off + n - 1) / P + 1).
  Proof.
    intros Hg Hk Ho Hn Hl. pose proof (po_thing _ _ Hg _ _ Hk) as M. cbn in M.
    pose proof (mo_high _ _ _ M) as Hi. pose proof (mo_base _ _ _ M) as Lo. unfold map_base in Lo.
    assert (D : G * (m_ptr (v_map v) / G) <= m_ptr (v_map v)) by (apply Z.mul_div_le; lia).
    pose proof (Z.mod_pos_bound (m_ptr (v_map v)) P HP) as Mb. pose proof (mo_len _ _ _ M) as Ml.
    destruct (Z.eq_dec (m_ptr (v_map v) mod P + m_len (v_map v)) 0) as [Z0|Z0].
    - assert (off = 0 /\ n = 0) as [-> ->] by lia. assert (A0 : m_ptr (v_map v) mod P = 0) by lia.
      exists (m_ptr (v_map v) / P), 0.
      assert (Ep : ptr_add t (m_ptr (v_map v)) 0 = m_ptr (v_map v)).
      { unfold ptr_add, as_usize. rewrite Z.add_0_r. apply Z.mod_small. lia. }
      rewrite Ep. split; [|split; [apply Z.div_pos; lia|split; [f_equal; lia|lia]]].
      rewrite (size_bounds_in t (bits_pos0 q Hq) P (P_pow2 q Hq) (P_word q Hq)); try (unfold is_usize; lia).
      do 2 f_equal. rewrite A0. cbn. rewrite Z.div_small; [lia|]. lia.
    - pose proof (mo_back _ _ _ M ltac:(lia)) as B.
      destruct (range_bounds q Hq _ _ _ _ _ _ B (E:=error) off n Ho Hn Hl) as (a & c & WB & Ea & A1 & A2 & _ & _ & _ & A3 & _).
      cbn [t_page as_posix] in *. exists a, c. split; [exact WB|]. split; [subst a; apply Z.div_pos; lia|]. split; [exact Ea|]. intros Np.
      specialize (A3 Np). assert (X : a + c - 1 = (m_ptr (v_map v) + off + n - 1) / P); [|lia].
      apply Z.div_unique with (m_ptr (v_map v) + off + n - 1 - P * (a + c - 1)); lia.
  Qed.
  Lemma map_bounds0 g k v : prog_ok t g -> g_tab g k = Some (TMap v) ->
    exists a c, size_bounds (E:=error) t P (m_ptr (v_map v)) (m_len (v_map v)) = Ret (P * a, P * c) /\
      0 <= a /\ a = (m_ptr (v_map v) + 0) / P /\ (0 < m_len (v_map v) -> a + c = (m_ptr (v_map v) + 0 + m_len (v_map v) - 1) / P + 1).
  Proof.
    intros Hg Hk. pose proof (po_thing _ _ Hg _ _ Hk) as M. cbn in M.
    destruct (map_bounds g k v 0 (m_len (v_map v)) Hg Hk ltac:(lia) (mo_len _ _ _ M) ltac:(lia)) as (a & c & WB & R).
    assert (Ep : ptr_add t (m_ptr (v_map v)) 0 = m_ptr (v_map v)).
    { unfold ptr_add, as_usize. rewrite Z.add_0_r. pose proof (mo_high _ _ _ M). pose proof (mo_base _ _ _ M) as Lo. unfold map_base in Lo.
      assert (D : G * (m_ptr (v_map v) / G) <= m_ptr (v_map v)) by (apply Z.mul_div_le; lia). pose proof (mo_len _ _ _ M).
      apply Z.mod_small. lia. }
    rewrite Ep in WB. exists a, c. auto.
  Qed.
  Lemma plain_inv g x r g' : plain g x = (r, g') -> g' = g_set g (snd x) /\
    r = match fst x with Ret _ => Ret GNone | Err e => Err e | Panic => Panic | Fault => Fault | Blocked => Blocked end.
  Proof. destruct x as [[u|e| | |] s]; intros H; injection H as <- <-; auto. Qed.

  (** Bytes of maps and rings depend on the page table but for the pins. *)
  Definition pin_eq (e e' : option pte) : Prop :=
    match e, e' with
    | Some e, Some e' => p_obj e' = p_obj e /\ p_idx e' = p_idx e /\ p_r e' = p_r e /\ p_copy e' = p_copy e
    | None, None => True
    | _, _ => False
    end.
  Lemma load_pin w w' a : (forall o, w_obj w' o = w_obj w o) -> pin_eq (w_vm w (a / P)) (w_vm w' (a / P)) ->
    OsModel.load (E:=error) t w' a = OsModel.load t w a.
  Proof.
    intros O V. unfold OsModel.load. destruct (w_vm w (a / P)) as [e|], (w_vm w' (a / P)) as [e'|]; try contradiction; [|reflexivity].
    destruct V as (V1 & V2 & V3 & V4). unfold page_byte. rewrite V1, V2, V3, V4, O. reflexivity.
  Qed.
  Lemma reading_pin g s' : (forall o, w_obj (n_w s') o = w_obj (n_w (g_s g)) o) -> (forall p, pin_eq (w_vm (n_w (g_s g)) p) (w_vm (n_w s') p)) ->
    forall k i, reading t (g_set g s') k i = reading t g k i.
  Proof.
    intros O V k i. unfold reading, act_step. cbn [g_tab g_set g_s]. destruct (g_tab g k) as [[v|r o]|]; [| |reflexivity].
    - unfold reads, finish, wget, lift, map_get. destruct ((0 <=? i) && (i <? m_len (v_map v))); [|reflexivity].
      rewrite (load_pin _ _ _ O (V _)). destruct (OsModel.load (E:=error) t (n_w (g_s g)) (ptr_add t (m_ptr (v_map v)) i)); reflexivity.
    - unfold reads, finish, wring_get. destruct ((0 <=? i) && (i <? 2 * ra_len r)); [|reflexivity].
      rewrite (load_pin _ _ _ O (V _)). destruct (OsModel.load (E:=error) t (n_w (g_s g)) (ra_ptr r + i)); reflexivity.
  Qed.

  Lemma pages_same f s s' a c a' n : a = a' / P -> a + c = (a' + n - 1) / P + 1 -> pages_changed t f s s' (P * a) (P * c) -> pages_changed t f s s' a' n.
  Proof.
    intros E1 E2 H p. specialize (H p).
    assert (D1 : P * a / P = a) by (rewrite Z.mul_comm; apply Z.div_mul; lia).
    assert (D2 : (P * a + P * c - 1) / P = a + c - 1).
    { replace (P * a + P * c - 1) with (P - 1 + (a + c - 1) * P) by lia. rewrite Z.div_add, Z.div_small by lia. lia. }
    rewrite D1, D2 in H. rewrite <- E1, <- E2. replace (a + c - 1 + 1) with (a + c) in H by lia. exact H.
  Qed.
  Lemma pin_changed b s s' a n : pages_changed t (set_lock b) s s' a n -> forall p, pin_eq (w_vm (n_w s) p) (w_vm (n_w s') p).
  Proof.
    intros H p. specialize (H p). destruct ((a / P <=? p) && (p <? (a + n - 1) / P + 1)).
    - destruct H as (e & -> & ->). cbn. auto.
    - rewrite H. destruct (w_vm (n_w s) p); cbn; auto.
  Qed.
  Lemma pin_same s s' : same_space s s' -> forall p, pin_eq (w_vm (n_w s) p) (w_vm (n_w s') p).
  Proof. intros H p. rewrite (ss_vm _ _ H). destruct (w_vm (n_w s) p); cbn; auto. Qed.

  Lemma wlock_lemma a g k v off n op b r g' : prog_ok t g -> g_tab g k = Some (TMap v) -> act_lock (m_len (v_map v)) a = Some (k, off, n, op, b) ->
    0 <= off -> 0 < n -> off + n <= m_len (v_map v) -> act_step t a g = (r, g') ->
    g_tab g' = g_tab g /\ other_state (g_s g) (g_s g') /\ (forall k i, reading t g' k i = reading t g k i) /\
    match r with
    | Ret x => x = GNone /\ pages_changed t (set_lock b) (g_s g) (g_s g') (m_ptr (v_map v) + off) n
    | Err e => same_space (g_s g) (g_s g') /\ exists c, e = last_os_error op c
    | _ => False
    end.
  Proof.
    intros Hg Hk Ha Ho Hn Hl H. pose proof (po_thing _ _ Hg _ _ Hk) as M. cbn in M.
    assert (U : uadd (E:=error) t off n = Ret (off + n)).
    { unfold uadd. apply wrap_in. pose proof (mo_high _ _ _ M). pose proof (mo_base _ _ _ M) as Lo. unfold map_base in Lo.
      assert (D : G * (m_ptr (v_map v) / G) <= m_ptr (v_map v)) by (apply Z.mul_div_le; lia). lia. }
    assert (X : exists p c, 0 <= p /\ p = (m_ptr (v_map v) + off) / P /\ p + c = (m_ptr (v_map v) + off + n - 1) / P + 1 /\
       plain g ((if b then win_lock t (P * p) (P * c) else win_unlock t (P * p) (P * c)) (g_s g)) = (r, g') /\ op = if b then OpLock else OpUnlock).
    { destruct a; cbn in Ha; try discriminate Ha.
      - assert (Z : k0 = k /\ off = 0 /\ n = m_len (v_map v) /\ op = OpLock /\ b = true) by (injection Ha; auto 10). destruct Z as (-> & -> & -> & -> & ->).
        destruct (map_bounds0 g k v Hg Hk) as (p & c & WB & A0 & A1 & A2). exists p, c. split; [exact A0|]. split; [exact A1|]. split; [auto|]. split; [|reflexivity].
        unfold act_step, with_map in H. rewrite Hk in H. unfold wlock, wwhole, wbind, wout, size_page in H. rewrite WB in H. exact H.
      - assert (Z : k0 = k /\ off0 = off /\ len = n /\ op = OpLock /\ b = true) by (injection Ha; auto 10). destruct Z as (-> & -> & -> & -> & ->).
        destruct (map_bounds g k v off n Hg Hk Ho ltac:(lia) Hl) as (p & c & WB & A0 & A1 & A2). exists p, c. split; [exact A0|]. split; [exact A1|]. split; [auto|]. split; [|reflexivity].
        unfold act_step, with_map in H. rewrite Hk in H. unfold wlock_range, wranged, wbind, wout, size_page in H. rewrite U in H.
        rewrite (proj2 (Z.ltb_ge _ _)) in H by exact Hl. rewrite WB in H. exact H.
      - assert (Z : k0 = k /\ off = 0 /\ n = m_len (v_map v) /\ op = OpUnlock /\ b = false) by (injection Ha; auto 10). destruct Z as (-> & -> & -> & -> & ->).
        destruct (map_bounds0 g k v Hg Hk) as (p & c & WB & A0 & A1 & A2). exists p, c. split; [exact A0|]. split; [exact A1|]. split; [auto|]. split; [|reflexivity].
        unfold act_step, with_map in H. rewrite Hk in H. unfold wunlock, wwhole, wbind, wout, size_page in H. rewrite WB in H. exact H.
      - assert (Z : k0 = k /\ off0 = off /\ len = n /\ op = OpUnlock /\ b = false) by (injection Ha; auto 10). destruct Z as (-> & -> & -> & -> & ->).
        destruct (map_bounds g k v off n Hg Hk Ho ltac:(lia) Hl) as (p & c & WB & A0 & A1 & A2). exists p, c. split; [exact A0|]. split; [exact A1|]. split; [auto|]. split; [|reflexivity].
        unfold act_step, with_map in H. rewrite Hk in H. unfold wunlock_range, wranged, wbind, wout, size_page in H. rewrite U in H.
        rewrite (proj2 (Z.ltb_ge _ _)) in H by exact Hl. rewrite WB in H. exact H. }
    destruct X as (p & c & A0 & A1 & A2 & X & Eo). apply plain_inv in X as [-> ->].
    set (m := if b then win_lock t (P * p) (P * c) else win_unlock t (P * p) (P * c)) in *. destruct (m (g_s g)) as [x s1] eqn:E. cbn [fst snd g_s g_set g_tab].
    assert (S : other_state (g_s g) s1 /\ match x with
        | Ret _ => 0 < P * c /\ pages_changed t (set_lock b) (g_s g) s1 (P * p) (P * c)
        | Err e => same_space (g_s g) s1 /\ exists c, e = last_os_error op c
        | _ => False end).
    { assert (Pp : 0 <= P * p) by nia. subst op m. destruct b; [exact (win_lock_spec t Ht _ _ _ _ _ Pp E)|exact (win_unlock_spec t Ht _ _ _ _ _ Pp E)]. }
    destruct S as [S1 S2]. split; [reflexivity|]. split; [exact S1|].
    destruct x as [u|e| | |]; try contradiction.
    - destruct S2 as [_ S2]. split; [|split; [reflexivity|exact (pages_same _ _ _ _ _ _ _ A1 A2 S2)]].
      apply reading_pin; [apply S1|]. exact (pin_changed _ _ _ _ _ S2).
    - split; [|exact S2]. apply reading_pin; [apply S1|]. apply pin_same, S2.
  Qed.

  Lemma wadvise_lemma a g k v off n : prog_ok t g -> g_tab g k = Some (TMap v) -> act_advise (m_len (v_map v)) a = Some (k, off, n) ->
    0 <= off -> 0 <= n -> off + n <= m_len (v_map v) -> act_step t a g = (Ret GNone, g).
  Proof.
    intros Hg Hk Ha Ho Hn Hl. pose proof (po_thing _ _ Hg _ _ Hk) as M. cbn in M.
    assert (U : uadd (E:=error) t off n = Ret (off + n)).
    { unfold uadd. apply wrap_in. pose proof (mo_high _ _ _ M). pose proof (mo_base _ _ _ M) as Lo. unfold map_base in Lo.
      assert (D : G * (m_ptr (v_map v) / G) <= m_ptr (v_map v)) by (apply Z.mul_div_le; lia). pose proof (Z.pow_pos_nonneg 2 (t_bits t)). pose proof (bits_pos0 q Hq). cbn in *. lia. }
    destruct a; cbn in Ha; try discriminate Ha.
    - assert (Z : k0 = k /\ off = 0 /\ n = m_len (v_map v)) by (injection Ha; auto 10). destruct Z as (-> & -> & ->).
      destruct (map_bounds0 g k v Hg Hk) as (p & c & WB & _).
      unfold act_step, with_map. rewrite Hk. unfold wadvise, wwhole, wbind, wout, size_page. rewrite WB. cbn. rewrite set_same. reflexivity.
    - assert (Z : k0 = k /\ off0 = off /\ len = n) by (injection Ha; auto 10). destruct Z as (-> & -> & ->).
      destruct (map_bounds g k v off n Hg Hk Ho Hn Hl) as (p & c & WB & _).
      unfold act_step, with_map. rewrite Hk. unfold wadvise_range, wranged, wbind, wout, size_page. rewrite U.
      rewrite (proj2 (Z.ltb_ge _ _)) by exact Hl. rewrite WB. cbn. rewrite set_same. reflexivity.
  Qed.

  Lemma wranged_out op m off n f s : is_usize t off -> is_usize t n -> off + n < 2 ^ t_bits t \/ t_checks t = true ->
    (m_len m < off + n -> off + n < 2 ^ t_bits t -> wranged t op m off n f s = (Err {| e_repr := RInput InvalidRange; e_op := op |}, s)) /\
    (2 ^ t_bits t <= off + n -> wranged t op m off n f s = (Panic, s)).
  Proof.
    intros Ho Hn Hw. unfold is_usize in *. unfold wranged, wbind, wout, uadd. split.
    - intros H1 H2. rewrite wrap_in by lia. rewrite (proj2 (Z.ltb_lt _ _)) by exact H1. reflexivity.
    - intros H1. destruct Hw as [Hw|Hw]; [lia|]. unfold wrap. rewrite Hw. rewrite (proj2 (Z.ltb_ge _ _)) by lia. rewrite Bool.andb_false_r. reflexivity.
  Qed.
  Lemma wrange_checked a g k v off n op mu : prog_ok t g -> g_tab g k = Some (TMap v) -> act_range a = Some (k, off, n, op, mu) ->
    (mu = true -> v_mut v = true) -> is_usize t off -> is_usize t n -> off + n < 2 ^ t_bits t \/ t_checks t = true ->
    (m_len (v_map v) < off + n -> off + n < 2 ^ t_bits t -> act_step t a g = (Err {| e_repr := RInput InvalidRange; e_op := op |}, g)) /\
    (2 ^ t_bits t <= off + n -> act_step t a g = (Panic, g)) /\
    (off + n <= m_len (v_map v) -> fst (act_step t a g) = Ret GNone \/ exists c, fst (act_step t a g) = Err (last_os_error op c)).
  Proof.
    intros Hg Hk Ha Hm Ho Hn Hw. pose proof (po_thing _ _ Hg _ _ Hk) as M. cbn in M.
    assert (X : exists f, act_step t a g = plain g (wranged t op (v_map v) off n f (g_s g)) /\
      forall p c s, 0 <= p -> match fst (f (P * p) (P * c) s) with Ret _ => True | Err e => exists x, e = last_os_error op x | _ => False end).
    { destruct a; cbn in Ha; try discriminate Ha;
        (assert (Z : k0 = k /\ off0 = off /\ len = n) by (injection Ha; auto 10)); destruct Z as (-> & -> & ->); injection Ha as <- <-; unfold act_step, with_mut, with_map; rewrite Hk;
        try rewrite (Hm eq_refl); eexists; (split; [reflexivity|]); intros p c s Hp.
      - destruct (win_flush t (P * p) fd (P * c) mode s) as [x s1] eqn:E. cbn. apply (win_flush_any t Ht) in E as [_ E]; [|nia]. cbv zeta in E. destruct x; intuition.
      - exact I.
      - destruct (win_lock t (P * p) (P * c) s) as [x s1] eqn:E. apply (win_lock_spec t Ht) in E as [_ E]; [|nia]. destruct x; cbn; intuition.
      - destruct (win_unlock t (P * p) (P * c) s) as [x s1] eqn:E. apply (win_unlock_spec t Ht) in E as [_ E]; [|nia]. destruct x; cbn; intuition. }
    destruct X as (f & -> & Ff). destruct (wranged_out op (v_map v) off n f (g_s g) Ho Hn Hw) as [O1 O2].
    split; [|split].
    - intros H1 H2. rewrite (O1 H1 H2). cbn. rewrite set_same. reflexivity.
    - intros H1. rewrite (O2 H1). cbn. rewrite set_same. reflexivity.
    - intros Hl. unfold is_usize in *. destruct (map_bounds g k v off n Hg Hk ltac:(lia) ltac:(lia) Hl) as (p & c & WB & A0 & _).
      unfold wranged, wbind, wout, size_page, uadd. pose proof (mo_high _ _ _ M). pose proof (mo_base _ _ _ M) as Lo. unfold map_base in Lo.
      assert (D : G * (m_ptr (v_map v) / G) <= m_ptr (v_map v)) by (apply Z.mul_div_le; lia).
      rewrite wrap_in by lia. rewrite (proj2 (Z.ltb_ge _ _)) by exact Hl. rewrite WB. cbn [fst snd].
      specialize (Ff p c (g_s g) A0). destruct (f (P * p) (P * c) (g_s g)) as [[u|e| | |] s1]; try contradiction; cbn in *; auto.
      destruct Ff as [x ->]. right. exists x. reflexivity.
  Qed.

  Lemma wnew_lemma hint s m s' : wf (n_w s) -> is_usize t hint -> hint + G < 2 ^ t_bits t \/ t_checks t = true ->
    wmapmut_new t hint s = (Ret m, s') ->
    hint <= m_len m < hint + G /\ m_len m mod G = 0 /\ m_ptr m mod P = 0 /\
    (forall i b, 0 <= i < m_len m -> wget t m i s' = (Ret 0, s') /\ fst (wset t m i b s') = Ret tt).
  Proof.
    intros W Hh Hw H. unfold wmapmut_new in H.
    assert (Z0 : 0 mod P = 0) by (apply Z.mod_small; lia).
    assert (O : options_ok t (opt_len (ExtMin hint) mapmut_with_options)).
    { pose proof (bits_pos0 q Hq). pose proof (Z.pow_pos_nonneg 2 (t_bits t)). cbn in *. unfold options_ok, extent_ok, is_usize in *. cbn -[Z.pow]. lia. }
    assert (F : walloc_fits t (opt_len (ExtMin hint) mapmut_with_options) \/ t_checks t = true).
    { destruct Hw; [left|auto]. unfold walloc_fits. cbn -[Z.pow Z.modulo Z.add]. rewrite Z0. lia. }
    destruct (walloc_lemma t Ht _ _ _ _ W O F H) as (_ & _ & _ & L & Rd & St & (n & _ & _ & _ & _ & _ & _ & A)).
    unfold walloc_len in L. cbn -[Z.pow Z.modulo Z.add] in L, A, St. rewrite Z0 in L, A. rewrite Z.add_0_l in L.
    split; [apply L|]. split; [apply L|]. split; [exact A|]. auto.
  Qed.
End Claims.
