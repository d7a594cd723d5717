(** Every call keeps the maps held apart and backed. *)
From Coq Require Import Lia.
From Verif Require Import Base ErrorModel SizeModel SizeProofs OsModel MapModel MapSpec OsProofs MapProofs MapCreate MapOps OthersModel ApiModel ApiSpec OthersProofs.

Section Api.
  Variable t : target.
  Hypothesis Ht : posix_target t.
  Notation P := (t_page t).

  (** A call that works inside the pages of [m]. *)
  Record within (m : mapping) (w w' : world) : Prop := {
    wi_out : forall p, ~ own_page t m p -> w_vm w' p = w_vm w p;
    wi_in : forall p e, w_vm w p = Some e -> exists e', w_vm w' p = Some e' /\ kept e e';
    wi_free : forall p, w_vm w p = None -> w_vm w' p = None;
    wi_next : w_next w' = w_next w;
    wi_fd : w_fd w' = w_fd w;
    wi_fs : w_fs w' = w_fs w;
    wi_size : forall o, o_size (w_obj w' o) = o_size (w_obj w o);
    wi_disk : forall o i, o_disk (w_obj w' o) i = o_disk (w_obj w o) i \/ o_disk (w_obj w' o) i = o_data (w_obj w' o) i
  }.

  Lemma kept_refl e : kept e e.
  Proof. repeat split; auto. Qed.

  Lemma within_vm m w w' : w_vm w' = w_vm w -> w_next w' = w_next w -> w_fd w' = w_fd w -> w_fs w' = w_fs w ->
    (forall o, o_size (w_obj w' o) = o_size (w_obj w o)) ->
    (forall o i, o_disk (w_obj w' o) i = o_disk (w_obj w o) i \/ o_disk (w_obj w' o) i = o_data (w_obj w' o) i) ->
    within m w w'.
  Proof.
    intros V N F S Z D. split; try assumption; rewrite V; auto. intros p e He. exists e. split; [exact He|apply kept_refl].
  Qed.
  Lemma quiet_within m w w' : quiet w w' -> within m w w'.
  Proof. intros [V O N F S]. apply within_vm; try assumption; rewrite O; auto. Qed.

  Lemma wf_within m w w' : wf w -> within m w w' -> wf w'.
  Proof.
    intros W [A B C N F S Z D]. apply (wf_change _ _ W); rewrite ?N, ?F, ?S; auto; try lia.
    intros p e' He. destruct (w_vm w p) as [e|] eqn:E.
    - destruct (B p e E) as (e2 & E2 & K). rewrite He in E2. injection E2 as <-. left. exists e. split; [reflexivity|]. exact (proj1 K).
    - rewrite (C p E) in He. discriminate He.
  Qed.

  (** Changing entries in place inside the map. *)
  Lemma inplace_within w m o off shared maxw a n f w' :
    backed t w m o off shared maxw -> first_page t m <= a -> a + n <= first_page t m + page_count t m ->
    (forall e, kept e (f e)) ->
    (forall p, w_vm w' p = if in_pages a n p then option_map f (w_vm w p) else w_vm w p) -> same_files w w' ->
    within m w w'.
  Proof.
    intros B H1 H2 K V [O N F S]. split; try assumption.
    - intros p Hp. rewrite V, in_pages_no; [reflexivity|]. unfold own_page in Hp. lia.
    - intros p e He. rewrite V, He. destruct (in_pages a n p); cbn; eexists; (split; [reflexivity|auto using kept_refl]).
    - intros p He. rewrite V, He. destruct (in_pages a n p); reflexivity.
    - rewrite O. auto.
    - rewrite O. auto.
  Qed.

  Lemma on_pages_within w m o off shared maxw a n ok f r w' :
    backed t w m o off shared maxw -> first_page t m <= a -> a + n <= first_page t m + page_count t m ->
    (forall e, kept e (f e)) -> on_range t (P * a) (P * n) ok f w = (r, w') ->
    within m w w' /\ (r = Ret tt \/ exists x, r = Err x).
  Proof.
    intros B H1 H2 K H. apply (on_pages_spec t Ht) in H. destruct r as [[]|x| | |]; try contradiction H.
    - destruct H as (_ & V & SF). split; [|auto]. exact (inplace_within _ _ _ _ _ _ _ _ _ _ B H1 H2 K V SF).
    - split; [apply quiet_within, H|eauto].
  Qed.
  Lemma msync_within w m a n sync r w' : sys_msync t (P * a) (P * n) sync w = (r, w') ->
    within m w w' /\ (r = Ret tt \/ exists x, r = Err x).
  Proof.
    intros H. apply (msync_pages t Ht) in H. destruct r as [[]|x| | |]; try contradiction H.
    - destruct H as (V & N & F & S & O). split; [|auto]. apply within_vm; try assumption.
      + intros o. exact (proj1 (O o)).
      + intros o i. destruct (O o) as (_ & Ed & D). rewrite D, Ed. destruct (sync && syncs t w a n o i); auto.
    - split; [apply quiet_within, H|eauto].
  Qed.

  (** The system calls used. *)
  Definition good_sys (op : operation) (f : Z -> Z -> ST error unit) : Prop :=
    forall w m o off shared maxw a n r w', backed t w m o off shared maxw ->
      first_page t m <= a -> a + n <= first_page t m + page_count t m -> f (P * a) (P * n) w = (r, w') ->
      within m w w' /\ (r = Ret tt \/ exists e, r = Err e /\ e_op e = op).

  Lemma good_on_range op ok f : (forall e, kept e (f e)) -> good_sys op (fun p l => os_call op (on_range t p l ok f)).
  Proof.
    intros K w m o off shared maxw a n r w' B H1 H2 H. apply os_call_inv in H.
    destruct r as [[]|e| | |].
    - destruct (on_pages_within _ _ _ _ _ _ _ _ _ _ _ _ B H1 H2 K H) as [Wi _]. auto.
    - destruct H as (x & H & ->). destruct (on_pages_within _ _ _ _ _ _ _ _ _ _ _ _ B H1 H2 K H) as [Wi _]. split; [exact Wi|]. right. eexists. split; reflexivity.
    - destruct (on_pages_within _ _ _ _ _ _ _ _ _ _ _ _ B H1 H2 K H) as [_ [X|(x & X)]]; discriminate X.
    - destruct (on_pages_within _ _ _ _ _ _ _ _ _ _ _ _ B H1 H2 K H) as [_ [X|(x & X)]]; discriminate X.
    - destruct (on_pages_within _ _ _ _ _ _ _ _ _ _ _ _ B H1 H2 K H) as [_ [X|(x & X)]]; discriminate X.
  Qed.

  Lemma good_flush mode : good_sys OpFlush (fun p l => os_flush t p l mode).
  Proof.
    intros w m o off shared maxw a n r w' B H1 H2 H. unfold os_flush in H. apply os_call_inv in H.
    destruct r as [[]|e| | |].
    - destruct (msync_within _ m _ _ _ _ _ H) as [Wi _]. auto.
    - destruct H as (x & H & ->). destruct (msync_within _ m _ _ _ _ _ H) as [Wi _]. split; [exact Wi|]. right. eexists. split; reflexivity.
    - destruct (msync_within _ m _ _ _ _ _ H) as [_ [X|(x & X)]]; discriminate X.
    - destruct (msync_within _ m _ _ _ _ _ H) as [_ [X|(x & X)]]; discriminate X.
    - destruct (msync_within _ m _ _ _ _ _ H) as [_ [X|(x & X)]]; discriminate X.
  Qed.
  Lemma good_advise adv : good_sys OpAdvise (fun p l => os_advise t p l adv).
  Proof.
    unfold os_advise, sys_madvise. apply good_on_range. intros e. destruct adv; try apply kept_refl.
    repeat split; auto.
  Qed.
  Lemma good_lock : good_sys OpLock (os_lock t).
  Proof. apply (good_on_range OpLock (fun _ => Ret tt) (set_lock true)). intros e. repeat split; auto. Qed.
  Lemma good_unlock : good_sys OpUnlock (os_unlock t).
  Proof. apply (good_on_range OpUnlock (fun _ => Ret tt) (set_lock false)). intros e. repeat split; auto. Qed.
  Lemma good_protect : good_sys OpProtect (fun p l => os_protect t p l ReadWrite).
  Proof. unfold os_protect, sys_mprotect. apply good_on_range. intros e. repeat split; auto. Qed.

  Lemma whole_within op f w m o off shared maxw r w' : good_sys op f -> backed t w m o off shared maxw ->
    whole t m f w = (r, w') -> within m w w' /\ (r = Ret tt \/ exists e, r = Err e /\ e_op e = op).
  Proof.
    intros G B H. rewrite (whole_eq t Ht _ _ _ _ _ _ f w B) in H. refine (G _ _ _ _ _ _ _ _ _ _ B _ _ H); lia.
  Qed.
  Lemma ranged_within op f w m o off shared maxw off' len r w' : good_sys op f -> backed t w m o off shared maxw ->
    is_usize t off' -> is_usize t len -> (off' + len < 2 ^ t_bits t \/ t_checks t = true) ->
    ranged t op m off' len f w = (r, w') ->
    within m w w' /\ (r = Ret tt \/ r = Panic \/ exists e, r = Err e /\ e_op e = op).
  Proof.
    intros G B U1 U2 Fit H. pose proof (ranged_cases t Ht w m o off shared maxw op off' len f w B U1 U2 Fit) as C.
    destruct (off' + len <=? m_len m).
    - destruct C as (a & n & E & _ & _ & _ & _ & H1 & H2 & _). rewrite E in H.
      destruct (G _ _ _ _ _ _ _ _ _ _ B H1 H2 H) as [Wi R]. split; [exact Wi|]. tauto.
    - destruct (off' + len <? 2 ^ t_bits t); rewrite C in H; injection H as <- <-; (split; [apply quiet_within, quiet_refl|]); auto.
      right. right. eexists. split; reflexivity.
  Qed.

  Lemma convert_inv m f w r w' : convert m f w = (r, w') ->
    match r with
    | Ret m' => m' = m /\ f w = (Ret tt, w')
    | Err (e, m') => m' = m /\ f w = (Err e, w')
    | Panic => f w = (Panic, w')
    | Fault => f w = (Fault, w')
    | Blocked => f w = (Blocked, w')
    end.
  Proof. unfold convert. destruct (f w) as [[[]|e| | |] w1]; intros H; injection H as <- <-; auto. Qed.

  Lemma to_mut_whole m : into_map_mut t m = convert m (whole t m (fun p l => os_protect t p l ReadWrite)).
  Proof. reflexivity. Qed.
  Lemma to_map_whole m : into_map t m = convert m (whole t m (fun p l => os_protect t p l ReadWrite)).
  Proof. reflexivity. Qed.

  Lemma protect_within w m o off shared maxw r w' : backed t w m o off shared maxw ->
    convert m (whole t m (fun p l => os_protect t p l ReadWrite)) w = (r, w') ->
    within m w w' /\ match r with Ret m' => m' = m | Err (e, m') => m' = m /\ e_op e = OpProtect | _ => False end.
  Proof.
    intros B H. apply convert_inv in H. destruct r as [m'|[e m']| | |].
    - destruct H as [-> H]. destruct (whole_within _ _ _ _ _ _ _ _ _ _ good_protect B H) as [Wi _]. auto.
    - destruct H as [-> H]. destruct (whole_within _ _ _ _ _ _ _ _ _ _ good_protect B H) as [Wi [X|(e' & X & Op)]]; [discriminate X|].
      injection X as <-. auto.
    - destruct (whole_within _ _ _ _ _ _ _ _ _ _ good_protect B H) as [_ [X|(e' & X & _)]]; discriminate X.
    - destruct (whole_within _ _ _ _ _ _ _ _ _ _ good_protect B H) as [_ [X|(e' & X & _)]]; discriminate X.
    - destruct (whole_within _ _ _ _ _ _ _ _ _ _ good_protect B H) as [_ [X|(e' & X & _)]]; discriminate X.
  Qed.

  Lemma set_within w m o off shared maxw i b r w' : backed t w m o off shared maxw -> map_set t m i b w = (r, w') ->
    within m w w' /\ (r = Ret tt \/ r = Panic \/ r = Fault) /\ (r = Panic <-> ~ (0 <= i < m_len m)).
  Proof.
    intros B H. unfold map_set in H. destruct (Z.leb_spec 0 i) as [G|G]; cbn [andb] in H.
    2:{ injection H as <- <-. split; [apply quiet_within, quiet_refl|]. split; [auto|]. split; [lia|reflexivity]. }
    destruct (Z.ltb_spec i (m_len m)) as [L|L].
    2:{ injection H as <- <-. split; [apply quiet_within, quiet_refl|]. split; [auto|]. split; [lia|reflexivity]. }
    destruct (byte_page t Ht w m o off shared maxw B i ltac:(lia)) as (Ep & Ow & _). rewrite Ep in H.
    apply store_effect in H as [[-> ->]|(-> & F & S & N & e & E & Ew & Z & C)].
    { split; [apply quiet_within, quiet_refl|]. split; [auto|]. split; [discriminate|lia]. }
    split; [|split; [auto|split; [discriminate|lia]]].
    assert (D : forall o i, o_disk (w_obj w' o) i = o_disk (w_obj w o) i \/ o_disk (w_obj w' o) i = o_data (w_obj w' o) i).
    { intros o' i'. left. rewrite (proj2 (Z o')). reflexivity. }
    destruct C as [(Sh & V & O & Dt)|(Sh & O & c & V)].
    - apply within_vm; try assumption. intros o'. exact (proj1 (Z o')).
    - split; try assumption.
      + intros p Hp. rewrite V. apply put_other. intros ->. contradiction.
      + intros p e' He. rewrite V. unfold put. destruct (Z.eqb_spec p ((m_ptr m + i) / P)) as [->|].
        * exists (set_copy c e). split; [reflexivity|]. rewrite E in He. injection He as <-. repeat split; auto. cbn. congruence.
        * exists e'. split; [exact He|apply kept_refl].
      + intros p Hp. rewrite V. unfold put. destruct (Z.eqb_spec p ((m_ptr m + i) / P)) as [->|]; [congruence|exact Hp].
      + intros o'. exact (proj1 (Z o')).
  Qed.

  (** ** One step *)
  Inductive step_kind (c : call) (a a' : api) : Prop :=
  | SkSame : extends (a_w a) (a_w a') -> wf (a_w a') -> a_live a' = a_live a -> a_cnt a' = a_cnt a ->
      (subject c = None \/ a_w a' = a_w a) -> step_kind c a a'
  | SkNew l : subject c = None -> extends (a_w a) (a_w a') -> wf (a_w a') -> a_live a' = put (a_live a) (a_cnt a) (Some l) ->
      a_cnt a' = a_cnt a + 1 -> backed t (a_w a') (l_map l) (l_obj l) (l_off l) (l_shared l) (l_maxw l) ->
      (forall p, own_page t (l_map l) p -> w_vm (a_w a) p = None) ->
      step_kind c a a'
  | SkIn k l l' : subject c = Some k -> a_live a k = Some l -> within (l_map l) (a_w a) (a_w a') ->
      (l' = l \/ l' = set_mut l true \/ l' = set_mut l false) ->
      (forall k', a_live a' k' = put (a_live a) k (Some l') k') -> a_cnt a' = a_cnt a -> step_kind c a a'
  | SkDrop k l : c = CDrop k -> a_live a k = Some l -> a_live a' = put (a_live a) k None -> a_cnt a' = a_cnt a ->
      (quiet (a_w a) (a_w a') \/
       (same_files (a_w a) (a_w a') /\ (forall p, own_page t (l_map l) p -> w_vm (a_w a') p = None) /\
        (forall p, ~ own_page t (l_map l) p -> w_vm (a_w a') p = w_vm (a_w a) p))) ->
      step_kind c a a'
  | SkOther e : c = COther e -> interfered (a_w a) (a_w a') -> wf (a_w a') -> a_live a' = a_live a -> a_cnt a' = a_cnt a -> step_kind c a a'.

  Lemma extends_refl w : extends w w.
  Proof. apply quiet_extends, quiet_refl. Qed.

  Lemma put_id {A} (f : Z -> option A) k x k' : f k = Some x -> f k' = put f k (Some x) k'.
  Proof. intros H. unfold put. destruct (Z.eqb_spec k' k) as [->|]; congruence. Qed.

  Lemma sk_in_same c a w' k l : subject c = Some k -> a_live a k = Some l -> within (l_map l) (a_w a) w' -> step_kind c a (set_w a w').
  Proof.
    intros S L W. eapply (SkIn c a (set_w a w') k l l); auto. intros k'. cbn. apply put_id, L.
  Qed.
  Lemma sk_nop c a : api_ok t a -> step_kind c a a.
  Proof. intros [W _ _ _]. apply SkSame; auto using extends_refl. Qed.
  Lemma sk_nop_w a c : api_ok t a -> step_kind c a (set_w a (a_w a)).
  Proof. intros [W _ _ _]. apply SkSame; cbn; auto using extends_refl. Qed.

  (** Which outcomes are possible. *)
  Definition plain (r : out error seen) : Prop := r <> Blocked.

  Lemma file_live_backed mut o fd w w' m f : wf w -> options_ok t o -> map_if t o fd w = (Ret (Some m), w') -> w_fd w fd = Some f ->
    backed t w' m (fd_obj f) (op_offset o) (prot_shares (op_protect o)) (negb (prot_shares (op_protect o)) || fd_w f) /\
    (forall p, own_page t m p -> w_vm w p = None) /\ file_live mut o w' fd m =
     {| l_map := m; l_mut := mut; l_obj := fd_obj f; l_off := op_offset o; l_prot := op_protect o; l_wr := fd_w f |}.
  Proof.
    intros W O H Ef. pose proof (map_if_spec t Ht _ _ _ _ _ W O H) as M. rewrite Ef in M.
    destruct M as (w1 & FD & L & _ & _ & _ & _ & C & SF). split; [exact (cr_backed _ _ _ _ _ _ _ _ C)|]. split.
    - intros p Hp. pose proof (cr_free _ _ _ _ _ _ _ _ C p Hp) as E.
      pose proof (tc_vm _ _ _ (fdn_touched _ _ _ _ _ FD) p) as T. rewrite E in T. destruct (w_vm w p); [contradiction|reflexivity].
    - unfold file_live, fd_object, fd_writes. rewrite (sf_fd _ _ SF), (tc_fd _ _ _ (fdn_touched _ _ _ _ _ FD)), Ef. reflexivity.
  Qed.

  Lemma map_if_some_fd o fd w m w' : wf w -> options_ok t o -> map_if t o fd w = (Ret (Some m), w') -> exists f, w_fd w fd = Some f.
  Proof.
    intros W O H. pose proof (map_if_spec t Ht _ _ _ _ _ W O H) as M. destruct (w_fd w fd) as [f|]; [eauto|].
    destruct M as (e & X & _). discriminate X.
  Qed.

  Lemma step_kinds c a r a' : api_ok t a -> call_ok t c -> step t c a = (r, a') -> step_kind c a a'.
  Proof.
    intros OK CO H. pose proof OK as [W Cnt Liv Ap].
    assert (Wm : forall k f, (forall l, a_live a k = Some l -> f l = (r, a') -> step_kind c a a') ->
                 with_map a k f = (r, a') -> step_kind c a a').
    { intros k f K E. unfold with_map in E. destruct (a_live a k) as [l|] eqn:El; [exact (K l eq_refl E)|].
      injection E as <- <-. apply sk_nop, OK. }
    destruct c as [mut o path|mut o fd|mut o|fd|k|k|k i|k i b|k md|k off len md|k adv|k off len adv|k|k off len|k|k off len|k|o pg|oe];
      cbn [step call_ok] in *.
    - (* open *)
      destruct (open_if t o path (a_w a)) as [r1 w1] eqn:E.
      destruct (open_if_spec t Ht _ _ _ _ _ W CO E) as (X & W1 & M).
      destruct r1 as [[[m|] fd]|e| | |]; try contradiction M; injection H as <- <-; try (apply SkSame; auto; left; reflexivity).
      destruct M as (w2 & E1 & E2). pose proof (file_open_spec _ _ _ _ _ _ E1) as [_ So].
      destruct (open_extends t _ _ _ _ _ _ _ _ W So) as (X1 & W2 & ob & F1 & _ & _).
      assert (Ef : w_fd w2 fd = Some {| fd_obj := ob; fd_w := oo_write (op_open o) |}) by (rewrite F1; apply put_same).
      destruct (file_live_backed mut _ _ _ _ _ _ W2 CO E2 Ef) as (B & Fr & El). rewrite El.
      eapply SkNew; [reflexivity|exact X|exact W1|reflexivity|reflexivity|exact B|].
      cbn [l_map]. intros p Hp. destruct (w_vm (a_w a) p) as [e|] eqn:Ev; [|reflexivity].
      destruct (ex_vm _ _ X1 p e Ev) as (e' & Ev' & _). rewrite (Fr p Hp) in Ev'. discriminate Ev'.
    - (* map *)
      destruct (map_if t o fd (a_w a)) as [r1 w1] eqn:E.
      destruct (map_if_extends t Ht _ _ _ _ _ W CO E) as (X & W1 & _).
      destruct r1 as [[m|]|e| | |]; injection H as <- <-; try (apply SkSame; auto; left; reflexivity).
      destruct (map_if_some_fd _ _ _ _ _ W CO E) as (f & Ef).
      destruct (file_live_backed mut _ _ _ _ _ _ W CO E Ef) as (B & Fr & El). rewrite El.
      eapply SkNew; [reflexivity|exact X|exact W1|reflexivity|reflexivity|exact B|exact Fr].
    - (* alloc *)
      destruct CO as [CO Fit]. destruct (alloc t o (a_w a)) as [r1 w1] eqn:E.
      destruct (alloc_extends t Ht _ _ _ _ W CO Fit E) as (X & W1 & _).
      pose proof (alloc_spec t Ht _ _ _ _ W CO Fit E) as M.
      destruct r1 as [m|e| | |]; try contradiction M; injection H as <- <-; try (apply SkSame; auto; left; reflexivity).
      destruct M as (_ & _ & Np & C & _).
      eapply SkNew; [reflexivity|exact X|exact W1|reflexivity|reflexivity| |]; cbn.
      + unfold l_maxw, l_shared. cbn. rewrite orb_true_r. exact (cr_backed _ _ _ _ _ _ _ _ C).
      + exact (cr_free _ _ _ _ _ _ _ _ C).
    - (* close *)
      injection H as <- <-. destruct (close_extends fd (a_w a) W) as (X & W1 & _). apply SkSame; auto; left; reflexivity.
    - (* into_map_mut *)
      revert H. apply Wm. intros l El H. pose proof (Liv k l El) as B. destruct (l_mut l); [injection H as <- <-; apply sk_nop, OK|].
      destruct (into_map_mut t (l_map l) (a_w a)) as [r1 w1] eqn:E. rewrite to_mut_whole in E.
      destruct (protect_within _ _ _ _ _ _ _ _ B E) as [Wi M].
      destruct r1 as [m|[e m]| | |]; try contradiction M; injection H as <- <-.
      + eapply (SkIn _ _ _ k l (set_mut l true)); auto.
      + apply (sk_in_same _ _ _ k l); auto.
    - (* into_map *)
      revert H. apply Wm. intros l El H. pose proof (Liv k l El) as B. destruct (negb (l_mut l)); [injection H as <- <-; apply sk_nop, OK|].
      destruct (into_map t (l_map l) (a_w a)) as [r1 w1] eqn:E. rewrite to_map_whole in E.
      destruct (protect_within _ _ _ _ _ _ _ _ B E) as [Wi M].
      destruct r1 as [m|[e m]| | |]; try contradiction M; injection H as <- <-.
      + eapply (SkIn _ _ _ k l (set_mut l false)); auto.
      + apply (sk_in_same _ _ _ k l); auto.
    - (* get *)
      revert H. apply Wm. intros l El H.
      assert (E : snd (map_get t (l_map l) i (a_w a)) = a_w a) by (unfold map_get; destruct (_ && _); reflexivity).
      destruct (map_get t (l_map l) i (a_w a)) as [r1 w1]. cbn in E. subst w1.
      destruct r1; injection H as <- <-; apply sk_nop_w, OK.
    - (* set *)
      revert H. apply Wm. intros l El H. pose proof (Liv k l El) as B. destruct (l_mut l); [|injection H as <- <-; apply sk_nop, OK].
      destruct (map_set t (l_map l) i b (a_w a)) as [r1 w1] eqn:E. destruct (set_within _ _ _ _ _ _ _ _ _ _ B E) as [Wi _].
      injection H as <- <-. apply (sk_in_same _ _ _ k l); auto.
    - (* flush *)
      revert H. apply Wm. intros l El H. pose proof (Liv k l El) as B. destruct (l_mut l); [|injection H as <- <-; apply sk_nop, OK].
      destruct (flush t (l_map l) md (a_w a)) as [r1 w1] eqn:E. destruct (whole_within _ _ _ _ _ _ _ _ _ _ (good_flush md) B E) as [Wi _].
      injection H as <- <-. apply (sk_in_same _ _ _ k l); auto.
    - revert H. apply Wm. intros l El H. pose proof (Liv k l El) as B. destruct (l_mut l); [|injection H as <- <-; apply sk_nop, OK].
      destruct CO as (U1 & U2 & Fit).
      destruct (flush_range t (l_map l) off len md (a_w a)) as [r1 w1] eqn:E.
      destruct (ranged_within _ _ _ _ _ _ _ _ _ _ _ _ (good_flush md) B U1 U2 Fit E) as [Wi _].
      injection H as <- <-. apply (sk_in_same _ _ _ k l); auto.
    - (* advise *)
      revert H. apply Wm. intros l El H. pose proof (Liv k l El) as B.
      destruct (advise t (l_map l) adv (a_w a)) as [r1 w1] eqn:E. destruct (whole_within _ _ _ _ _ _ _ _ _ _ (good_advise adv) B E) as [Wi _].
      injection H as <- <-. apply (sk_in_same _ _ _ k l); auto.
    - revert H. apply Wm. intros l El H. pose proof (Liv k l El) as B.
      destruct CO as (U1 & U2 & Fit).
      destruct (advise_range t (l_map l) off len adv (a_w a)) as [r1 w1] eqn:E.
      destruct (ranged_within _ _ _ _ _ _ _ _ _ _ _ _ (good_advise adv) B U1 U2 Fit E) as [Wi _].
      injection H as <- <-. apply (sk_in_same _ _ _ k l); auto.
    - (* lock *)
      revert H. apply Wm. intros l El H. pose proof (Liv k l El) as B.
      destruct (lock t (l_map l) (a_w a)) as [r1 w1] eqn:E. destruct (whole_within _ _ _ _ _ _ _ _ _ _ good_lock B E) as [Wi _].
      injection H as <- <-. apply (sk_in_same _ _ _ k l); auto.
    - revert H. apply Wm. intros l El H. pose proof (Liv k l El) as B.
      destruct CO as (U1 & U2 & Fit).
      destruct (lock_range t (l_map l) off len (a_w a)) as [r1 w1] eqn:E.
      destruct (ranged_within _ _ _ _ _ _ _ _ _ _ _ _ good_lock B U1 U2 Fit E) as [Wi _].
      injection H as <- <-. apply (sk_in_same _ _ _ k l); auto.
    - (* unlock *)
      revert H. apply Wm. intros l El H. pose proof (Liv k l El) as B.
      destruct (unlock t (l_map l) (a_w a)) as [r1 w1] eqn:E. destruct (whole_within _ _ _ _ _ _ _ _ _ _ good_unlock B E) as [Wi _].
      injection H as <- <-. apply (sk_in_same _ _ _ k l); auto.
    - revert H. apply Wm. intros l El H. pose proof (Liv k l El) as B.
      destruct CO as (U1 & U2 & Fit).
      destruct (unlock_range t (l_map l) off len (a_w a)) as [r1 w1] eqn:E.
      destruct (ranged_within _ _ _ _ _ _ _ _ _ _ _ _ good_unlock B U1 U2 Fit E) as [Wi _].
      injection H as <- <-. apply (sk_in_same _ _ _ k l); auto.
    - (* drop *)
      revert H. apply Wm. intros l El H. pose proof (Liv k l El) as B.
      destruct (drop_map t (l_map l) (a_w a)) as [r1 w1] eqn:E.
      destruct (drop_spec t Ht _ _ _ _ _ _ _ _ _ B E) as [-> D]. injection H as <- <-.
      eapply (SkDrop _ _ _ k l); auto; cbn. tauto.
    - (* write-back *)
      injection H as <- <-. apply SkSame; auto.
      + split; cbn; [|lia|].
        * intros p e He. exists e. split; [exact He|]. split; [apply same_place_refl|auto].
        * intros o' i. unfold put. destruct (Z.eqb_spec o' o) as [->|]; [|auto]. cbn. destruct (i / P =? pg); auto.
      + apply (wf_change _ _ W); cbn; eauto; try lia. intros o'. left. unfold put. destruct (Z.eqb_spec o' o) as [->|]; reflexivity.
    - (* other processes *)
      injection H as <- <-. pose proof (others_interfered t oe (a_w a) CO) as V. apply (SkOther _ _ _ oe); auto. exact (iv_wf _ _ V W).
  Qed.

  Lemma shared_set_mut l b : l_shared (set_mut l b) = l_shared l /\ l_maxw (set_mut l b) = l_maxw l.
  Proof. split; reflexivity. Qed.

  Lemma put_cases {A} (f : Z -> option A) k x k' y : put f k (Some x) k' = Some y -> (k' = k /\ y = x) \/ (k' <> k /\ f k' = Some y).
  Proof. unfold put. destruct (Z.eqb_spec k' k) as [->|]; intros H; [injection H as <-|]; auto. Qed.

  Lemma own_mapped_live a k l p : api_ok t a -> a_live a k = Some l -> own_page t (l_map l) p -> exists e, w_vm (a_w a) p = Some e.
  Proof. intros [_ _ L _] H O. destruct (bk_pages _ _ _ _ _ _ _ (L k l H) p O) as (e & E & _). eauto. Qed.

  Lemma backed_interfered w w' m o off shared maxw : backed t w m o off shared maxw -> interfered w w' -> backed t w' m o off shared maxw.
  Proof.
    intros B X. apply (backed_kept t w); [exact B|]. intros p e _ He.
    destruct (interfered_vm _ _ _ _ X He) as (e' & E' & S & C). exists e'. split; [exact E'|apply same_place_kept; assumption].
  Qed.

  Lemma step_kind_ok c a a' : api_ok t a -> step_kind c a a' -> api_ok t a'.
  Proof.
    intros OK K. pose proof OK as [W Cnt Liv Ap]. destruct K as [X W' L' C'|l Sj X W' L' C' B' Fr|k l l' Sj L Wi El L' C'|k l -> L L' C' D|oe _ X W' L' C'].
    5:{ split; rewrite ?L', ?C'; try assumption. intros k l Hl. exact (backed_interfered _ _ _ _ _ _ _ (Liv k l Hl) X). }
    - split; rewrite ?L', ?C'; try assumption. intros k l Hl. exact (backed_extends t _ _ _ _ _ _ _ (Liv k l Hl) X).
    - split; [exact W'| | |].
      + intros k Hk. rewrite L'. rewrite C' in Hk. rewrite put_other by lia. apply Cnt. lia.
      + intros k l0 Hl. rewrite L' in Hl. apply put_cases in Hl as [[-> ->]|[_ Hl]]; [exact B'|].
        exact (backed_extends t _ _ _ _ _ _ _ (Liv k l0 Hl) X).
      + intros k1 k2 l1 l2 p H1 H2 N O1 O2. rewrite L' in H1, H2.
        apply put_cases in H1 as [[E1 ->]|[_ H1]]; apply put_cases in H2 as [[E2 ->]|[_ H2]].
        * congruence.
        * destruct (own_mapped_live a k2 l2 p OK H2 O2) as (e & E). rewrite (Fr p O1) in E. discriminate E.
        * destruct (own_mapped_live a k1 l1 p OK H1 O1) as (e & E). rewrite (Fr p O2) in E. discriminate E.
        * exact (Ap _ _ _ _ _ H1 H2 N O1 O2).
    - assert (Em : l_map l' = l_map l /\ l_obj l' = l_obj l /\ l_off l' = l_off l /\ l_shared l' = l_shared l /\ l_maxw l' = l_maxw l).
      { destruct El as [->|[->| ->]]; repeat split. }
      destruct Em as (M1 & M2 & M3 & M4 & M5).
      assert (Keep : forall k0 l0, a_live a k0 = Some l0 ->
        backed t (a_w a') (l_map l0) (l_obj l0) (l_off l0) (l_shared l0) (l_maxw l0)).
      { intros k0 l0 H0. apply (backed_kept t (a_w a)); [exact (Liv k0 l0 H0)|]. intros p e _ He. exact (wi_in _ _ _ Wi p e He). }
      split.
      + exact (wf_within _ _ _ W Wi).
      + intros k0 Hk. rewrite C' in Hk. rewrite L'. rewrite put_other; [apply Cnt, Hk|]. intros ->. rewrite (Cnt k Hk) in L. discriminate L.
      + intros k0 l0 Hl. rewrite L' in Hl. apply put_cases in Hl as [[-> ->]|[_ Hl]]; [|exact (Keep _ _ Hl)].
        rewrite M1, M2, M3, M4, M5. exact (Keep _ _ L).
      + intros k1 k2 l1 l2 p H1 H2 N O1 O2. rewrite L' in H1, H2.
        apply put_cases in H1 as [[E1 ->]|[_ H1]]; apply put_cases in H2 as [[E2 ->]|[_ H2]]; rewrite ?M1 in *.
        * congruence.
        * subst k1. exact (Ap _ _ _ _ _ L H2 N O1 O2).
        * subst k2. exact (Ap _ _ _ _ _ H1 L N O1 O2).
        * exact (Ap _ _ _ _ _ H1 H2 N O1 O2).
    - assert (Sub : forall k0 l0, a_live a' k0 = Some l0 -> k0 <> k /\ a_live a k0 = Some l0).
      { intros k0 l0 H0. rewrite L' in H0. unfold put in H0. destruct (Z.eqb_spec k0 k); [discriminate H0|auto]. }
      split.
      + destruct D as [Q|([O N F S] & D1 & D2)]; [exact (wf_quiet _ _ W Q)|].
        apply (wf_change _ _ W); rewrite ?O, ?N, ?F, ?S; auto; try lia.
        intros p e He. left. destruct (in_pages_cases (first_page t (l_map l)) (page_count t (l_map l)) p) as [[_ I]|[_ I]].
        * rewrite (D1 p I) in He. discriminate He.
        * rewrite (D2 p I) in He. eauto.
      + intros k0 Hk. rewrite C' in Hk. rewrite L'. unfold put. destruct (k0 =? k); [reflexivity|apply Cnt, Hk].
      + intros k0 l0 H0. destruct (Sub _ _ H0) as [N0 H1]. pose proof (Liv k0 l0 H1) as B.
        destruct D as [Q|(_ & D1 & D2)].
        * exact (backed_extends t _ _ _ _ _ _ _ B (quiet_extends _ _ Q)).
        * apply (backed_kept t (a_w a)); [exact B|]. intros p e Hp He. exists e. split; [|apply kept_refl].
          rewrite D2; [exact He|]. intros O. exact (Ap _ _ _ _ _ H1 L N0 Hp O).
      + intros k1 k2 l1 l2 p H1 H2 N O1 O2. apply (Ap k1 k2 l1 l2 p); try assumption; [apply (Sub _ _ H1)|apply (Sub _ _ H2)].
  Qed.

  Theorem step_ok c a : api_ok t a -> call_ok t c -> api_ok t (snd (step t c a)).
  Proof.
    intros OK CO. destruct (step t c a) as [r a'] eqn:E. exact (step_kind_ok _ _ _ OK (step_kinds _ _ _ _ OK CO E)).
  Qed.

  Theorem reached_ok a : reached t a -> api_ok t a.
  Proof.
    induction 1 as [w W|a c R IH CO].
    - split; cbn; try discriminate; auto.
    - apply step_ok; assumption.
  Qed.

  (** What a call does to the entries of maps it is not made on. *)
  Theorem step_others c a r a' k l : api_ok t a -> call_ok t c -> step t c a = (r, a') ->
    a_live a k = Some l -> subject c <> Some k ->
    a_live a' k = Some l /\
    forall p e, own_page t (l_map l) p -> w_vm (a_w a) p = Some e ->
      exists e', w_vm (a_w a') p = Some e' /\ unmoved e e' /\
        (p_copy e' = p_copy e \/ (p_copy e' = None /\ p_shared e = false)).
  Proof.
    intros OK CO H Hl Ns. pose proof OK as [W Cnt Liv Ap].
    assert (Kc : k < a_cnt a) by (destruct (Z_lt_le_dec k (a_cnt a)) as [X|X]; [exact X|rewrite (Cnt k X) in Hl; discriminate Hl]).
    destruct (step_kinds _ _ _ _ OK CO H) as [X W' L' C'|l0 Sj X W' L' C' B' Fr|k0 l0 l' Sj L Wi El L' C'|k0 l0 -> L L' C' D|oe _ X W' L' C'].
    5:{ split; [rewrite L'; exact Hl|]. intros p e _ He. exact (interfered_vm _ _ _ _ X He). }
    - split; [rewrite L'; exact Hl|]. intros p e _ He. exact (ex_vm _ _ X p e He).
    - split; [rewrite L', put_other by lia; exact Hl|]. intros p e _ He. exact (ex_vm _ _ X p e He).
    - assert (Nk : k <> k0) by congruence.
      split; [rewrite L', put_other by exact Nk; exact Hl|]. intros p e Hp He. exists e. split; [|split; [apply same_place_refl|auto]].
      rewrite (wi_out _ _ _ Wi); [exact He|]. intros O. exact (Ap _ _ _ _ _ Hl L Nk Hp O).
    - assert (Nk : k <> k0) by (intros ->; apply Ns; reflexivity).
      split; [rewrite L', put_other by exact Nk; exact Hl|]. intros p e Hp He. exists e. split; [|split; [apply same_place_refl|auto]].
      destruct D as [Q|(_ & D1 & D2)].
      + rewrite (q_vm _ _ Q). exact He.
      + rewrite D2; [exact He|]. intros O. exact (Ap _ _ _ _ _ Hl L Nk Hp O).
  Qed.
End Api.
