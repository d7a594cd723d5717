(** Proofs for ExecSpec.v on Windows. *)
From Coq Require Import Lia.
From Verif Require Import Base ErrorModel RingSpec SizeModel OsModel OthersModel MapModel MapSpec RingMapModel MemRingModel ProcModel
  WinModel WinMapModel WinProcModel WinThreadModel ExecSpec ExecProofs.

Section Exec.
  Variable t : target.
  Variable good : bool -> bool -> Prop.
  Hypothesis good_r : good false false.
  Hypothesis good_w : good true false.
  Notation K := (permissions good).
  Notation allowed := (allowed good).
  Notation ktrans := (k_trans good).

  Definition nwell {E A} (m : WT E A) : Prop := forall s, K (n_w s) (n_w (snd (m s))).
  Lemma n_ret {E A} (a : A) : nwell (wret (E:=E) a).
  Proof. intros s. apply k_refl. Qed.
  Lemma n_out {E A} (x : out E A) : nwell (wout x).
  Proof. intros s. apply k_refl. Qed.
  Lemma n_bind {E A B} (m : WT E A) (k : A -> WT E B) : nwell m -> (forall a, nwell (k a)) -> nwell (wbind m k).
  Proof. intros H F s. unfold wbind. specialize (H s). destruct (m s) as [[a|e| | |] s1]; cbn in *; try exact H. exact (ktrans _ _ _ H (F a s1)). Qed.
  Lemma n_lift {E A} (m : ST E A) : well good m -> nwell (lift m).
  Proof. intros H s. unfold lift. specialize (H (n_w s)). destruct (m (n_w s)) as [r w]. exact H. Qed.
  Lemma n_call {A} c (k : Z -> (Z -> bool) -> WT Z A) : (forall a f, nwell (k a f)) -> nwell (WinModel.call c k).
  Proof.
    intros H s. unfold WinModel.call, ask. destruct (w_orc (n_w s)) as [|[e|a] q]; cbn -[hd tl].
    - apply k_refl.
    - apply k_same. reflexivity.
    - specialize (H a (hd (fun _ => false) (n_env s)) (with_w (with_env s (tl (n_env s))) (set_orc (n_w s) q))).
      destruct (k a _ _) as [[x|e| | |] s1]; exact H.
  Qed.
  Lemma n_drop_pages first n s s0 : w_vm (n_w s) = w_vm (n_w s0) -> K (n_w s0) (n_w (drop_pages first n s)).
  Proof. intros E p e'. cbn. destruct (in_pages first n p); [discriminate|]. rewrite E. eauto. Qed.
  Lemma n_create file pr hi lo : nwell (create_mapping t file pr hi lo).
  Proof.
    apply n_call. intros h f s. cbv zeta. destruct (n_sec s h); [apply k_refl|]. destruct (h <=? 0); [apply k_refl|]. destruct file as [fd|].
    - destruct (w_fd (n_w s) fd); [|apply k_refl]. destruct (_ =? 0); [apply k_refl|]. destruct (match pr with PageReadWrite => _ | _ => _ end); [apply k_refl|].
      destruct (_ <? _); apply k_refl.
    - destruct (_ || _); [apply k_refl|apply k_same; reflexivity].
  Qed.
  Lemma n_map_view h acc hi lo len at_ : good (pr_w (access_prot acc)) (pr_x (access_prot acc)) -> nwell (map_view t h acc hi lo len at_).
  Proof.
    intros Ha. apply n_call. intros a f s. cbv zeta. destruct (n_sec s h); [|apply k_refl]. destruct (negb _ || negb _); [apply k_refl|].
    destruct (_ || _); [apply k_refl|]. destruct (match acc with MapReadWrite => _ | _ => _ end); [apply k_refl|].
    destruct (negb _ || negb _); [apply k_refl|]. intros p e'. cbn. destruct (in_pages _ _ p); [|eauto]. intros [= <-]. left. exact Ha.
  Qed.
  Lemma n_unmap_view a : nwell (unmap_view t a).
  Proof. apply n_call. intros _ _ s. destruct (n_view s a); [|apply k_refl]. apply (n_drop_pages _ _ s s). reflexivity. Qed.
  Lemma n_valloc len : nwell (virtual_alloc t len).
  Proof.
    apply n_call. intros a f s. cbv zeta. destruct (len <=? 0); [apply k_refl|]. destruct (_ || _); [apply k_refl|].
    intros p e'. cbn. destruct (in_pages _ _ p); [|eauto]. intros [= <-]. left. exact good_r.
  Qed.
  Lemma n_vfree a : nwell (virtual_free t a).
  Proof. apply n_call. intros _ _ s. destruct (n_resv s a); [|apply k_refl]. apply (n_drop_pages _ _ s s). reflexivity. Qed.
  Lemma n_on_pages c a len k : (forall i n, nwell (k i n)) -> nwell (on_pages t c a len k).
  Proof. intros H. apply n_call. intros _ _ s. cbv zeta. destruct (len <=? 0); [apply k_refl|]. destruct (mapped_range _ _ _); [apply H|apply k_refl]. Qed.
  Lemma n_change g i n : (forall e, good (p_w (g e)) (p_x (g e)) \/ (p_w (g e) = p_w e /\ p_x (g e) = p_x e)) -> nwell (WinModel.change g i n).
  Proof.
    intros H s p e'. cbn. destruct (in_pages i n p); [|eauto]. destruct (w_vm (n_w s) p) as [e|]; cbn; [|discriminate]. intros [= <-].
    destruct (H e) as [G|[A B]]; [auto|right; exists e; auto].
  Qed.
  Lemma n_vprotect a len p : good (pr_w (page_prot_bits p)) (pr_x (page_prot_bits p)) -> nwell (virtual_protect t a len p).
  Proof. intros G. apply n_on_pages. intros i n s. destruct (forallb _ _); [apply n_change; intros e; left; exact G|apply k_refl]. Qed.
  Lemma n_vlock a len : nwell (virtual_lock t a len).
  Proof. apply n_on_pages. intros i n. apply n_change. intros e. right. auto. Qed.
  Lemma n_vunlock a len : nwell (virtual_unlock t a len).
  Proof. apply n_on_pages. intros i n s. destruct (forallb _ _); [apply n_change; intros e; right; auto|apply k_refl]. Qed.
  Lemma n_flush_view a len : nwell (flush_view t a len).
  Proof. intros s. unfold flush_view. apply n_on_pages. intros i n s1. apply k_refl. Qed.
  Lemma n_flush_file fd : nwell (flush_file fd).
  Proof. apply n_call. intros _ _ s. destruct (w_fd (n_w s) fd); [|apply k_refl]. destruct (negb _); [apply k_refl|apply k_same; reflexivity]. Qed.
  Lemma n_win_call {A} op (m : WT Z A) : nwell m -> nwell (win_call op m).
  Proof. intros H s. unfold win_call. specialize (H s). destruct (m s) as [[a|e| | |] s1]; exact H. Qed.
  Lemma n_no_result {A} (m : WT Z A) : nwell m -> nwell (no_result m).
  Proof. intros H s. unfold no_result. specialize (H s). destruct (m s) as [[a|e| | |] s1]; exact H. Qed.
  Lemma n_handle_new op file pr len : nwell (handle_new t op file pr len).
  Proof. apply n_win_call, n_create. Qed.
  Lemma n_handle_view h op acc off len at_ : good (pr_w (access_prot acc)) (pr_x (access_prot acc)) -> nwell (handle_view t h op acc off len at_).
  Proof. intros G. apply n_win_call, n_map_view, G. Qed.
  Lemma n_scoped {A} h (m : WT error A) : nwell m -> nwell (scoped h m).
  Proof. intros H s. unfold scoped. specialize (H s). destruct (m s) as [r s1]. exact H. Qed.
  Lemma pair_ok p : allowed p -> good (pr_w (access_prot (snd (protect_pair p)))) (pr_x (access_prot (snd (protect_pair p)))).
  Proof. destruct p; exact (fun G => G). Qed.
  Lemma n_map_file fd off len p : allowed p -> nwell (win_map_file t fd off len p).
  Proof.
    intros G. unfold win_map_file. apply pair_ok in G. destruct (protect_pair p) as [pr acc]. apply n_bind; [apply n_handle_new|].
    intros h. apply n_scoped, n_handle_view, G.
  Qed.
  Lemma n_map_anon len p : allowed p -> nwell (win_map_anon t len p).
  Proof.
    intros G. unfold win_map_anon. apply pair_ok in G. destruct (protect_pair p) as [pr acc]. apply n_bind; [apply n_handle_new|].
    intros h. apply n_scoped, n_handle_view, G.
  Qed.
  Lemma n_ring_loop more : forall h len full, nwell (ring_loop t more h len full).
  Proof.
    assert (One : forall h len pg, nwell (map_ring_handle t h len pg)).
    { intros h len pg. apply n_bind; [apply n_handle_view; exact good_w|]. intros a s.
      pose proof (n_handle_view h RingSecondary MapReadWrite 0 len (ptr_add t pg len) good_w s) as H.
      destruct (handle_view _ _ _ _ _ _ _ s) as [[x|e| | |] s1]; try exact H. cbn [snd] in H. apply (ktrans _ _ _ H).
      apply (n_bind (no_result (unmap_view t a))); [apply n_no_result, n_unmap_view|intros; apply n_out]. }
    assert (Res : forall full, nwell (reserve t full)).
    { intros full. apply n_bind; [apply n_win_call, n_valloc|]. intros pg. apply n_bind; [apply n_no_result, n_vfree|]. intros. apply n_ret. }
    induction more as [|more IH]; intros h len full; cbn [ring_loop]; (apply n_bind; [apply Res|]); intros pg s; specialize (One h len pg s);
      destruct (map_ring_handle t h len pg s) as [[x|e| | |] s1]; try exact One. exact (ktrans _ _ _ One (IH h len full s1)).
  Qed.
  Lemma n_ring_new hint : nwell (win_ring_new t hint).
  Proof.
    apply n_bind; [apply n_out|]. intros len. apply n_bind; [|intros; apply n_ret]. apply n_bind; [apply n_out|]. intros full.
    apply n_bind; [apply n_handle_new|]. intros h. apply n_scoped, n_ring_loop.
  Qed.
  Lemma n_ring_drop r : nwell (win_ring_drop t r).
  Proof.
    intros s. unfold win_ring_drop. assert (H : nwell (win_unmap_ring t (ra_ptr r) (ra_len r))).
    { apply n_bind; [apply n_win_call, n_unmap_view|]. intros. apply n_no_result, n_unmap_view. }
    specialize (H s). destruct (win_unmap_ring t (ra_ptr r) (ra_len r) s) as [[a|e| | |] s1]; exact H.
  Qed.

  (** ** WinMapModel.v *)
  Lemma n_wmap_if o fd : allowed (op_protect o) -> nwell (wmap_if t o fd).
  Proof.
    intros G. apply n_bind; [apply n_lift, w_bind; [apply w_io, w_file_len|intros; apply w_ret]|]. intros l1. apply n_bind.
    { apply n_lift. destruct (_ && _); [apply w_resize_to|apply w_ret]. }
    intros l2. apply n_bind.
    { apply n_lift. destruct (op_resize o); try destruct (_ <? _); first [apply w_ret | apply w_resize_to]. }
    intros l3. destruct (_ <? _); [apply n_ret|]. apply n_bind; [apply n_out|]. intros mx. destruct (extent_len _ _); [|apply n_ret].
    do 3 (apply n_bind; [apply n_out|]; intros ?). apply n_bind; [apply n_map_file, G|intros; apply n_ret].
  Qed.
  Lemma n_wopen_if o path : allowed (op_protect o) -> nwell (wopen_if t o path).
  Proof.
    intros G. apply n_bind; [apply n_lift, w_io, w_file_open|]. intros f. apply n_bind; [|intros; apply n_ret].
    intros s. unfold wclosing. pose proof (n_wmap_if o f G s) as H. destruct (wmap_if t o f s) as [[m|e| | |] s1]; exact H.
  Qed.
  Lemma n_walloc o : allowed (op_protect o) -> nwell (walloc t o).
  Proof.
    intros G. apply n_bind; [apply n_out|]. intros off. apply n_bind; [destruct (op_len o); (apply n_out || apply n_ret)|]. intros len.
    apply n_bind; [apply n_out|]. intros total. apply n_bind; [apply n_map_anon, G|intros; apply n_ret].
  Qed.
  Lemma n_wconvert m f : nwell f -> nwell (wconvert m f).
  Proof. intros H s. unfold wconvert. specialize (H s). destruct (f s) as [[a|e| | |] s1]; exact H. Qed.
  Lemma n_wwhole m f : (forall p l, nwell (f p l)) -> nwell (wwhole t m f).
  Proof. intros H. apply n_bind; [apply n_out|]. intros b. apply H. Qed.
  Lemma n_wranged op m off len f : (forall p l, nwell (f p l)) -> nwell (wranged t op m off len f).
  Proof. intros H. apply n_bind; [apply n_out|]. intros e. destruct (_ <? _); [apply n_out|]. apply n_bind; [apply n_out|]. intros b. apply H. Qed.
  Lemma n_wflush pg fd l mode : nwell (win_flush t pg fd l mode).
  Proof. apply n_bind; [apply n_win_call, n_flush_view|]. intros. destruct mode; [apply n_win_call, n_flush_file|apply n_ret]. Qed.
  Lemma n_wdrop m : nwell (wdrop t m).
  Proof.
    intros s. unfold wdrop. destruct (_ <? _); [|apply k_refl]. destruct (size_bounds _ _ _ _) as [[p l]|e| | |]; try apply k_refl.
    unfold win_unmap. pose proof (n_unmap_view p s) as H. destruct (unmap_view t p s) as [[a|e| | |] s1]; exact H.
  Qed.
  Lemma finish_k {E A} w (r : out E A) err f g : (forall a, K w (n_w (g_s (snd (f a))))) -> K w (n_w (g_s g)) -> K w (n_w (g_s (snd (WinMapModel.finish r err f g)))).
  Proof. intros F G. destruct r; cbn; auto. Qed.
  Lemma w_get m i : nwell (wget t m i).
  Proof. apply n_lift. intros w. unfold map_get. destruct (_ && _); apply k_refl. Qed.
  Lemma w_set m i b : nwell (wset t m i b).
  Proof. apply n_lift. intros w. unfold map_set. destruct (_ && _); [apply w_store|apply k_refl]. Qed.

  Definition act_allowed (a : act) : Prop := forall o, act_options a = Some o -> allowed (op_protect o).
  Lemma k_act a g : act_allowed a -> K (n_w (g_s g)) (n_w (g_s (snd (act_step t a g)))).
  Proof.
    intros Ha.
    assert (Pl : forall x, K (n_w (g_s g)) (n_w (snd x)) -> K (n_w (g_s g)) (n_w (g_s (snd (WinMapModel.plain g x))))).
    { intros x H. apply finish_k; intros; exact H. }
    assert (Rd : forall x, K (n_w (g_s g)) (n_w (snd x)) -> K (n_w (g_s g)) (n_w (g_s (snd (WinMapModel.reads g x))))).
    { intros x H. apply finish_k; intros; exact H. }
    assert (Wm : forall k f, (forall v, K (n_w (g_s g)) (n_w (g_s (snd (f v))))) -> K (n_w (g_s g)) (n_w (g_s (snd (WinMapModel.with_map g k f))))).
    { intros k f H. unfold WinMapModel.with_map. destruct (g_tab g k) as [[v|r o]|]; [apply H|apply k_refl|apply k_refl]. }
    assert (Wu : forall k f, (forall v, K (n_w (g_s g)) (n_w (g_s (snd (f v))))) -> K (n_w (g_s g)) (n_w (g_s (snd (with_mut g k f))))).
    { intros k f H. apply Wm. intros v. destruct (v_mut v); [apply H|apply k_refl]. }
    destruct a; cbn [act_step]; cbv zeta.
    - pose proof (n_wopen_if o path (Ha o eq_refl) (g_s g)) as H. destruct (wopen_if t o path (g_s g)) as [r s'].
      apply finish_k; [|exact H]. intros [[m|] f]; exact H.
    - pose proof (n_wmap_if o fd (Ha o eq_refl) (g_s g)) as H. destruct (wmap_if t o fd (g_s g)) as [r s'].
      apply finish_k; [|exact H]. intros [m|]; exact H.
    - pose proof (n_walloc o (Ha o eq_refl) (g_s g)) as H. destruct (walloc t o (g_s g)) as [r s']. apply finish_k; [|exact H]. intros m. exact H.
    - apply k_same. reflexivity.
    - apply Wm. intros v. destruct (v_mut v); [apply k_refl|].
      assert (H : nwell (winto_map_mut t (v_map v))) by (apply n_wconvert, n_wwhole; intros; apply n_win_call, n_vprotect; exact good_w).
      specialize (H (g_s g)). destruct (winto_map_mut t (v_map v) (g_s g)) as [r s']. apply finish_k; intros; exact H.
    - apply Wu. intros v.
      assert (H : nwell (winto_map t (v_map v))) by (apply n_wconvert, n_wwhole; intros; apply n_win_call, n_vprotect; exact good_w).
      specialize (H (g_s g)). destruct (winto_map t (v_map v) (g_s g)) as [r s']. apply finish_k; intros; exact H.
    - destruct (g_tab g k) as [[v|r o]|]; [apply Rd, w_get| |apply k_refl]. apply Rd. unfold wring_get. destruct (_ && _); apply k_refl.
    - destruct (g_tab g k) as [[v|r o]|]; [destruct (v_mut v); [apply Pl, w_set|apply k_refl]| |apply k_refl].
      apply Pl, n_lift. intros w. destruct (_ && _); [apply w_store|apply k_refl].
    - apply Wu. intros v. apply Pl, n_wwhole. intros. apply n_wflush.
    - apply Wu. intros v. apply Pl, n_wranged. intros. apply n_wflush.
    - apply Wm. intros v. apply Pl, n_wwhole. intros. apply n_ret.
    - apply Wm. intros v. apply Pl, n_wranged. intros. apply n_ret.
    - apply Wm. intros v. apply Pl, n_wwhole. intros. apply n_win_call, n_vlock.
    - apply Wm. intros v. apply Pl, n_wranged. intros. apply n_win_call, n_vlock.
    - apply Wm. intros v. apply Pl, n_wwhole. intros. apply n_win_call, n_vunlock.
    - apply Wm. intros v. apply Pl, n_wranged. intros. apply n_win_call, n_vunlock.
    - pose proof (n_ring_new hint (g_s g)) as H. destruct (win_ring_new t hint (g_s g)) as [r s']. apply finish_k; intros; exact H.
    - destruct (g_tab g k) as [x|]; [|apply k_refl].
      assert (H : K (n_w (g_s g)) (n_w (snd (match x with TMap v => wdrop t (v_map v) (g_s g) | TRing r _ => win_ring_drop t r (g_s g) end)))).
      { destruct x; [apply n_wdrop|apply n_ring_drop]. }
      destruct (match x with TMap v => _ | TRing r _ => _ end) as [r s']. apply finish_k; intros; exact H.
    - unfold wothers. cbn. apply k_others.
  Qed.

  Definition wpcall_allowed (c : wpcall) : Prop := match c with WAct a => act_allowed a | _ => True end.
  Lemma k_wpstep c p : wpcall_allowed c -> K (n_w (g_s (wp_g p))) (n_w (g_s (wp_g (snd (wpstep t c p))))).
  Proof.
    intros Hc.
    assert (New : forall mk hint, K (n_w (g_s (wp_g p))) (n_w (g_s (wp_g (snd (wp_new t mk hint p)))))).
    { intros mk hint. unfold wp_new. pose proof (n_ring_new hint (g_s (wp_g p))) as H. cbv zeta.
      destruct (win_ring_new t hint (g_s (wp_g p))) as [[a|e| | |] s]; exact H. }
    assert (Q : forall a b s, K (n_w s) (n_w (snd (wpoke t a b s)))) by (intros a b; apply n_lift, w_store).
    destruct c as [a|hint|hint|k o|k o|k]; cbn [wpstep]; cbv zeta.
    - destruct (on_maps p a); [|apply k_refl]. pose proof (k_act a (wp_g p) Hc) as H. destruct (act_step t a (wp_g p)) as [r g']. exact H.
    - apply New.
    - apply New.
    - destruct (wp_ring p k) as [[v|v]|]; try apply k_refl.
      pose proof (q_kring t win (wpeek t) (wpoke t) (fun a b => K (n_w a) (n_w b)) (fun s => k_refl good _) (fun a b c => ktrans _ _ _) Q o v (g_s (wp_g p))) as H.
      destruct (kring_step t win (wpeek t) (wpoke t) o v (g_s (wp_g p))) as [r [v' s]]. exact H.
    - destruct (wp_ring p k) as [[v|v]|]; try apply k_refl.
      pose proof (q_kiring t win (wpeek t) (wpoke t) (fun a b => K (n_w a) (n_w b)) (fun s => k_refl good _) (fun a b c => ktrans _ _ _) Q o v (g_s (wp_g p))) as H.
      destruct (kiring_step t win (wpeek t) (wpoke t) o v (g_s (wp_g p))) as [r [v' s]]. exact H.
    - destruct (wp_ring p k) as [h|]; [|apply k_refl]. pose proof (n_ring_drop (h_alloc h) (g_s (wp_g p))) as H.
      destruct (win_ring_drop t (h_alloc h) (g_s (wp_g p))) as [r s]. exact H.
  Qed.

  (** ** Calls in progress *)
  Definition wpend_allowed (pd : wpend) : Prop :=
    match pd with
    | VOpen _ o _ | VStat _ _ o _ | VCut _ _ o _ _ | VSize _ _ o _ _ | VCreate _ _ o _ _ | VView _ _ o _ _ _ _ _ _ | VDone _ _ o _ _ _ _ _ _
    | NCreate _ o _ _ _ | NView _ o _ _ _ _ _ | NDone _ o _ _ _ _ _ => allowed (op_protect o)
    | _ => True
    end.
  Definition more_allowed (x : woutcome) : Prop := match x with WMore pd => wpend_allowed pd | _ => True end.
  Lemma vfail_allowed {A} own fd (r : out error A) : more_allowed (vfail own fd r).
  Proof. unfold vfail. destruct own; exact Logic.I. Qed.
  Lemma wthen_allowed {A} s (fail : out error A -> woutcome) x next :
    K (n_w s) (n_w (snd x)) -> (forall r, more_allowed (fail r)) -> (forall a, more_allowed (next a)) ->
    K (n_w s) (n_w (snd (wthen fail x next))) /\ more_allowed (fst (wthen fail x next)).
  Proof. intros H F N. destruct x as [[a|e| | |] s1]; cbn in *; auto. Qed.
  Lemma k_wadvance pd s : wpend_allowed pd -> K (n_w s) (n_w (snd (wadvance t pd s))) /\ more_allowed (fst (wadvance t pd s)).
  Proof.
    intros G. assert (Kr : forall inf len full h ob more e, more_allowed (kretry inf len full h ob more e)) by (intros ? ? ? ? ? [|more] ?; exact Logic.I).
    destruct pd; cbn [wadvance wpend_allowed] in *.
    - apply wthen_allowed; [apply n_lift, w_io, w_file_open|intros; exact Logic.I|intros; exact G].
    - apply wthen_allowed; [apply n_lift, w_bind; [apply w_io, w_file_len|intros; apply w_ret]|intros; apply vfail_allowed|intros; exact G].
    - apply wthen_allowed; [apply n_lift|intros; apply vfail_allowed|intros; exact G]. destruct (_ && _); [apply w_resize_to|apply w_ret].
    - apply wthen_allowed; [apply n_lift|intros; apply vfail_allowed|intros; exact G].
      unfold vsize. destruct (op_resize o); try destruct (_ <? _); (apply w_ret || apply w_resize_to).
    - destruct (vplan t o flen) as [[[[[mapoff maplen] d] len]|]|e| | |]; try (split; [apply k_refl|apply vfail_allowed || exact Logic.I]).
      apply wthen_allowed; [apply n_handle_new|intros; apply vfail_allowed|intros; exact G].
    - destruct (uadd (E:=error) t len d) as [maplen|e| | |]; try (split; [apply k_refl|apply vfail_allowed]).
      pose proof (n_handle_view h MapFileView (snd (protect_pair (op_protect o))) mapoff maplen 0 (pair_ok _ G) s) as H.
      destruct (handle_view _ _ _ _ _ _ _ s) as [r s']. split; [exact H|exact G].
    - split; [apply k_refl|]. destruct r; try apply vfail_allowed. exact Logic.I.
    - split; [apply k_same; reflexivity|exact Logic.I].
    - apply wthen_allowed; [apply n_handle_new|intros; exact Logic.I|intros; exact G].
    - pose proof (n_handle_view h MapAnonymousView (snd (protect_pair (op_protect o))) 0 total 0 (pair_ok _ G) s) as H.
      destruct (handle_view _ _ _ _ _ _ _ s) as [r s']. split; [exact H|exact G].
    - split; [apply k_refl|]. destruct r; exact Logic.I.
    - apply wthen_allowed; [apply n_handle_new|intros; exact Logic.I|intros; exact Logic.I].
    - apply wthen_allowed; [apply n_win_call, n_valloc|intros; exact Logic.I|intros; exact Logic.I].
    - apply wthen_allowed; [apply n_no_result, n_vfree|intros; exact Logic.I|intros; exact Logic.I].
    - pose proof (n_handle_view h RingPrimary MapReadWrite 0 len pg good_w s) as H.
      destruct (handle_view _ _ _ _ _ _ _ s) as [[a|e| | |] s']; (split; [exact H|]); first [apply Kr|exact Logic.I].
    - pose proof (n_handle_view h RingSecondary MapReadWrite 0 len (ptr_add t pg len) good_w s) as H.
      destruct (handle_view _ _ _ _ _ _ _ s) as [[a|e| | |] s']; (split; [exact H|exact Logic.I]).
    - pose proof (n_no_result _ (n_unmap_view pg) s) as H. destruct (no_result (unmap_view t pg) s) as [[a|e0| | |] s']; (split; [exact H|]); first [apply Kr|exact Logic.I].
    - split; [apply k_refl|]. destruct r; exact Logic.I.
    - pose proof (n_win_call RingDeallocate _ (n_unmap_view (ptr_add t (ra_ptr r) (ra_len r))) s) as H.
      destruct (win_call RingDeallocate _ s) as [[a|e0| | |] s']; (split; [exact H|exact Logic.I]).
    - pose proof (n_no_result _ (n_unmap_view (ra_ptr r)) s) as H. destruct (no_result _ s) as [[a|e0| | |] s']; (split; [exact H|exact Logic.I]).
  Qed.

  Definition wevent_allowed (e : wevent) : Prop := forall o, wevent_options e = Some o -> allowed (op_protect o).
  Definition wpool_allowed (s : wtsys) : Prop := forall tid pd, wt_pool s tid = Some pd -> wpend_allowed pd.
  Definition wt_w (s : wtsys) : world := n_w (g_s (wp_g (wt_p s))).
  Lemma wtstep_allowed e s : wevent_allowed e -> wpool_allowed s -> K (wt_w s) (wt_w (snd (wtstep t e s))) /\ wpool_allowed (snd (wtstep t e s)).
  Proof.
    intros He Hp. unfold wt_w.
    assert (Put : forall p tid x, match x with Some pd => wpend_allowed pd | None => True end -> wpool_allowed (wset_pool s p tid x)).
    { intros p tid x Hx i pd. cbn. unfold put. destruct (i =? tid); [intros ->; exact Hx|exact (Hp i pd)]. }
    assert (Same : K (n_w (g_s (wp_g (wt_p s)))) (n_w (g_s (wp_g (wt_p s)))) /\ wpool_allowed s) by (split; [apply k_refl|exact Hp]).
    destruct e as [c|tid mut o path|tid mut o fd|tid mut o|tid inf hint|tid k|tid]; cbn [wtstep]; cbv zeta; unfold wbegin.
    - pose proof (k_wpstep c (wt_p s)) as H. destruct (wpstep t c (wt_p s)) as [x p']. split; [|exact Hp]. apply H. destruct c; try exact Logic.I. exact He.
    - destruct (wt_pool s tid); [exact Same|]. split; [apply k_refl|apply Put; exact (He o eq_refl)].
    - destruct (wt_pool s tid); [exact Same|]. split; [apply k_refl|apply Put; exact (He o eq_refl)].
    - destruct (wt_pool s tid); [exact Same|]. destruct (nplan t o) as [[[off len] total]|e| | |]; try exact Same. split; [apply k_refl|apply Put; exact (He o eq_refl)].
    - destruct (wt_pool s tid); [exact Same|]. destruct (obind _ _) as [[len full]|e| | |]; try exact Same. split; [apply k_refl|apply Put; exact Logic.I].
    - destruct (wt_pool s tid); [exact Same|]. destruct (wp_ring (wt_p s) k), (g_tab (wp_g (wt_p s)) k); try exact Same. split; [apply k_refl|apply Put; exact Logic.I].
    - destruct (wt_pool s tid) as [pd|] eqn:E; [|exact Same]. unfold wgo. cbv zeta.
      pose proof (k_wadvance pd (g_s (wp_g (wt_p s))) (Hp tid pd E)) as [H M].
      destruct (wadvance t pd (g_s (wp_g (wt_p s)))) as [oc x]. cbn [fst snd] in *.
      destruct oc; (split; [exact H|]); apply Put; first [exact M|exact Logic.I].
  Qed.
  Theorem wtrun_allowed h : forall s, Forall wevent_allowed h -> wpool_allowed s -> K (wt_w s) (wt_w (snd (wtrun t h s))).
  Proof.
    induction h as [|e h IH]; intros s F Hp; [apply k_refl|]. apply Forall_cons_iff in F as [He F]. cbn [wtrun].
    destruct (wtstep_allowed e s He Hp) as [H1 H2]. specialize (IH _ F H2). destruct (wtstep t e s) as [x s1]. cbn [snd] in *.
    destruct (wtrun t h s1) as [xs s2]. exact (ktrans _ _ _ H1 IH).
  Qed.
End Exec.
