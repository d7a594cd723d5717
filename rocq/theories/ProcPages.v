(** Which pages a program has mapped. *)
From Coq Require Import Lia.
From Verif Require Import Base Spec ErrorModel RingSpec SizeModel SizeProofs OsModel OthersModel MapModel MapSpec OsProofs MapProofs MapCreate MapOps
  ApiModel ApiSpec ApiProofs RingMapModel RingMapSpec MirrorProofs RingMapClaims MemRingModel
  ProcModel ProcSpec ProcFrame ProcProofs.

Definition mapped (w : world) (pg : Z) : Prop := w_vm w pg <> None.

(** The same pages are mapped. *)
Definition dom (w w' : world) : Prop := forall p, w_vm w' p = None <-> w_vm w p = None.
Definition domly {E A} (m : ST E A) : Prop := forall w, dom w (snd (m w)).

Lemma dom_refl w : dom w w.
Proof. intros p. reflexivity. Qed.
Lemma dom_trans w1 w2 w3 : dom w1 w2 -> dom w2 w3 -> dom w1 w3.
Proof. intros H1 H2 p. rewrite (H2 p). apply H1. Qed.
Lemma dom_eq w w' : w_vm w' = w_vm w -> dom w w'.
Proof. intros E p. rewrite E. reflexivity. Qed.

Lemma domly_ret {E A} (a : A) : domly (sret (E:=E) a).
Proof. intros w. apply dom_refl. Qed.
Lemma domly_out {E A} (x : out E A) : domly (sout x).
Proof. intros w. apply dom_refl. Qed.
Lemma domly_bind {E A B} (m : ST E A) (k : A -> ST E B) : domly m -> (forall a, domly (k a)) -> domly (sbind m k).
Proof.
  intros H K w. unfold sbind. specialize (H w). destruct (m w) as [[a|e| | |] w1]; cbn in *; try exact H.
  exact (dom_trans _ _ _ H (K a w1)).
Qed.
Lemma domly_os {A} op (m : ST Z A) : domly m -> domly (os_call op m).
Proof. intros H w. unfold os_call. specialize (H w). destruct (m w) as [[a|e| | |] w1]; exact H. Qed.
Lemma domly_ask {A} (k : Z -> ST Z A) : (forall a, domly (k a)) -> domly (ask k).
Proof.
  intros H w. unfold ask. destruct (w_orc w) as [|[e|a] q]; cbn.
  - apply dom_refl.
  - apply dom_eq. reflexivity.
  - apply (dom_trans _ (set_orc w q)); [apply dom_eq; reflexivity|apply H].
Qed.

Section Pages.
  Variable t : target.
  Lemma domly_on_range addr len ok f : domly (on_range t addr len ok f).
  Proof.
    apply domly_ask. intros a w. destruct (negb _); [apply dom_refl|]. cbv zeta. destruct (negb _); [apply dom_refl|].
    destruct (fold_left _ _ _); try apply dom_refl. intros p. cbn. destruct (in_pages _ _ p); [|reflexivity].
    destruct (w_vm w p); cbn; split; (discriminate || auto).
  Qed.
  Lemma domly_msync addr len sync : domly (sys_msync t addr len sync).
  Proof.
    apply domly_ask. intros a w. destruct (negb _); [apply dom_refl|]. cbv zeta. destruct (negb _); [apply dom_refl|].
    destruct sync; apply dom_eq; reflexivity.
  Qed.
  Lemma dom_resize o sz w : dom w (resize_obj t o sz w).
  Proof. intros p. cbn. destruct (w_vm w p) as [e|]; [|tauto]. destruct (_ && _); split; discriminate. Qed.
  Lemma domly_open path wr creat excl trunc : domly (sys_open t path wr creat excl trunc).
  Proof.
    apply domly_ask. intros a w. destruct (negb _); [apply dom_refl|]. destruct (w_fs w path) as [o|].
    - destruct (creat && excl); [apply dom_refl|]. cbv zeta.
      assert (D : dom w (if trunc && (0 <? o_size (w_obj w o)) then resize_obj t o 0 w else w)).
      { destruct (trunc && _); [exact (dom_resize o 0 w)|apply dom_refl]. }
      refine (dom_trans _ _ _ D _). apply dom_eq. reflexivity.
    - destruct (negb creat); [apply dom_refl|]. apply dom_eq. reflexivity.
  Qed.
  Lemma domly_file_open oo path : domly (file_open t oo path).
  Proof.
    intros w. unfold file_open. destruct (_ && _); [apply dom_refl|].
    pose proof (domly_open path (oo_write oo) (oo_create oo || oo_create_new oo) (oo_create_new oo)
                  (oo_truncate oo && negb (oo_create_new oo)) w) as H.
    destruct (sys_open _ _ _ _ _ _ w) as [[a|e| | |] w1]; exact H.
  Qed.
  Lemma dom_store {E} a b w : dom w (snd (store (E:=E) t a b w)).
  Proof.
    unfold store. destruct (w_vm w (a / t_page t)) as [e|] eqn:Ev; [|apply dom_refl].
    destruct (negb _); [apply dom_refl|]. cbv zeta. destruct (_ <=? _); [apply dom_refl|]. destruct (p_shared e).
    - destruct (_ <? _); apply dom_eq; reflexivity.
    - intros p. cbn. unfold put. destruct (Z.eqb_spec p (a / t_page t)) as [->|]; [|reflexivity]. rewrite Ev. split; discriminate.
  Qed.
  Lemma domly_whole m f : (forall p l, domly (f p l)) -> domly (whole t m f).
  Proof. intros H. apply domly_bind; [apply domly_out|]. intros b. apply H. Qed.
  Lemma domly_ranged op m off len f : (forall p l, domly (f p l)) -> domly (ranged t op m off len f).
  Proof.
    intros H. apply domly_bind; [apply domly_out|]. intros e. destruct (_ <? _); [apply domly_out|].
    apply domly_bind; [apply domly_out|]. intros b. apply H.
  Qed.
  Lemma domly_convert m f : domly f -> domly (convert m f).
  Proof. intros H w. specialize (H w). unfold convert. destruct (f w) as [[[]|e| | |] w1]; exact H. Qed.

  (** Calls that neither make nor drop a map. *)
  Lemma dom_others e w : dom w (others t e w).
  Proof.
    assert (R : forall o sz, dom w (resize_obj t o sz w)).
    { intros o sz p. pose proof (resize_obj_spec t o sz w) as R. cbv zeta in R. destruct R as (V & _). specialize (V p).
      destruct (w_vm w p), (w_vm (resize_obj t o sz w) p); try contradiction V; split; congruence. }
    destruct e as [path|path|from to|path sz|path sz|path off d sync]; cbn [others]; unfold at_name;
      try (apply dom_eq; reflexivity); destruct (w_fs w _); try apply dom_refl; try (apply dom_eq; reflexivity);
      (destruct (_ <? _); [apply R|apply dom_refl]).
  Qed.
  Lemma dom_step c a : (match c with COpen _ _ _ | CMap _ _ _ | CAlloc _ _ | CDrop _ => False | _ => True end) ->
    dom (a_w a) (a_w (snd (step t c a))) /\ forall k, option_map l_map (a_live (snd (step t c a)) k) = option_map l_map (a_live a k).
  Proof.
    intros Hc.
    assert (U : forall x : out error unit * world, dom (a_w a) (snd x) ->
      dom (a_w a) (a_w (snd (unit_call a x))) /\ forall k, option_map l_map (a_live (snd (unit_call a x)) k) = option_map l_map (a_live a k)).
    { intros [r w1] H. split; [exact H|reflexivity]. }
    assert (I : dom (a_w a) (a_w a) /\ forall k, option_map l_map (a_live a k) = option_map l_map (a_live a k)) by (split; [apply dom_refl|reflexivity]).
    assert (Wm : forall k f, (forall l, a_live a k = Some l -> dom (a_w a) (a_w (snd (f l))) /\ forall k', option_map l_map (a_live (snd (f l)) k') = option_map l_map (a_live a k')) ->
      dom (a_w a) (a_w (snd (with_map a k f))) /\ forall k', option_map l_map (a_live (snd (with_map a k f)) k') = option_map l_map (a_live a k')).
    { intros k f H. unfold with_map. destruct (a_live a k) as [l|]; [apply H; reflexivity|exact I]. }
    assert (Pu : forall k l l' k', a_live a k = Some l -> l_map l' = l_map l -> option_map l_map (put (a_live a) k (Some l') k') = option_map l_map (a_live a k')).
    { intros k l l' k' Hk Em. unfold put. destruct (Z.eqb_spec k' k) as [->|]; [|reflexivity]. rewrite Hk. cbn. rewrite Em. reflexivity. }
    destruct c as [mut op path|mut op fd|mut op|fd|k|k|k i|k i b|k md|k off len md|k adv|k off len adv|k|k off len|k|k off len|k|o' pg|oe];
      cbn [step]; try contradiction Hc.
    - split; [apply dom_eq; reflexivity|reflexivity].
    - apply Wm. intros l Hl. destruct (l_mut l); [exact I|].
      assert (H : domly (into_map_mut t (l_map l))) by (apply domly_convert, domly_bind; [apply domly_out|intros b; apply domly_os, domly_on_range]).
      specialize (H (a_w a)). destruct (into_map_mut t (l_map l) (a_w a)) as [[m|[e m]| | |] w1]; (split; [exact H|]); intros k'; try reflexivity.
      apply (Pu k l _ k' Hl). reflexivity.
    - apply Wm. intros l Hl. destruct (negb (l_mut l)); [exact I|].
      assert (H : domly (into_map t (l_map l))) by (apply domly_convert, domly_bind; [apply domly_out|intros b; apply domly_os, domly_on_range]).
      specialize (H (a_w a)). destruct (into_map t (l_map l) (a_w a)) as [[m|[e m]| | |] w1]; (split; [exact H|]); intros k'; try reflexivity.
      apply (Pu k l _ k' Hl). reflexivity.
    - apply Wm. intros l _. unfold map_get. destruct (_ && _); [|exact I]. destruct (OsModel.load _ _ _); exact I.
    - apply Wm. intros l El. destruct (l_mut l); [|exact I]. apply U. unfold map_set. destruct (_ && _); [|apply dom_refl]. apply dom_store.
    - apply Wm. intros l _. destruct (l_mut l); [|exact I]. apply U, domly_whole. intros. apply domly_os, domly_msync.
    - apply Wm. intros l _. destruct (l_mut l); [|exact I]. apply U, domly_ranged. intros. apply domly_os, domly_msync.
    - apply Wm. intros l _. apply U, domly_whole. intros. apply domly_os, domly_on_range.
    - apply Wm. intros l _. apply U, domly_ranged. intros. apply domly_os, domly_on_range.
    - apply Wm. intros l _. apply U, domly_whole. intros. apply domly_os, domly_on_range.
    - apply Wm. intros l _. apply U, domly_ranged. intros. apply domly_os, domly_on_range.
    - apply Wm. intros l _. apply U, domly_whole. intros. apply domly_os, domly_on_range.
    - apply Wm. intros l _. apply U, domly_ranged. intros. apply domly_os, domly_on_range.
    - split; [apply dom_eq; reflexivity|reflexivity].
    - split; [apply dom_others|reflexivity].
  Qed.
End Pages.

Section Balance.
  Variable t : target.
  Variable plat : platform.
  Hypothesis Ht : posix_target t.
  Notation P := (t_page t).
  Let Hg : good_target t := proj1 Ht.
  Let HP : 0 < P.
  Proof. exact (pow2_pos _ (proj1 (proj2 Hg))). Qed.

  Definition map_holds (a : api) (pg : Z) : Prop := exists k l, a_live a k = Some l /\ own_page t (l_map l) pg.

  (** What a call that drops nothing does to the set of mapped pages. *)
  Record grows (a a' : api) : Prop := {
    gr_pages : forall pg, w_vm (a_w a') pg <> None <-> w_vm (a_w a) pg <> None \/ map_holds a' pg;
    gr_new : forall pg, map_holds a' pg -> map_holds a pg \/ w_vm (a_w a) pg = None;
    gr_old : forall pg, map_holds a pg -> map_holds a' pg
  }.

  Lemma held_mapped a pg : api_ok t a -> map_holds a pg -> w_vm (a_w a) pg <> None.
  Proof. intros A (k & l & Hl & Ho). destruct (own_mapped_live t _ _ _ _ A Hl Ho) as (e & ->). discriminate. Qed.
  Lemma grows_same a a' : api_ok t a -> dom (a_w a) (a_w a') -> (forall k, option_map l_map (a_live a' k) = option_map l_map (a_live a k)) -> grows a a'.
  Proof.
    intros A D L.
    assert (H1 : forall pg, map_holds a pg -> map_holds a' pg).
    { intros pg (k & l & Hl & Ho). specialize (L k). rewrite Hl in L. destruct (a_live a' k) as [l'|] eqn:E; [|discriminate L].
      injection L as L. exists k, l'. rewrite L. auto. }
    assert (H2 : forall pg, map_holds a' pg -> map_holds a pg).
    { intros pg (k & l & Hl & Ho). specialize (L k). rewrite Hl in L. destruct (a_live a k) as [l'|] eqn:E; [|discriminate L].
      injection L as L. exists k, l'. rewrite <- L. auto. }
    split; auto. intros pg. pose proof (D pg) as Dp. pose proof (fun H => held_mapped a pg A (H2 pg H)). tauto.
  Qed.
  Lemma grows_new a w' l o off sh mx w1 : api_ok t a -> dom (a_w a) w1 -> backed t w' (l_map l) o off sh mx ->
    (forall q, own_page t (l_map l) q -> w_vm w1 q = None) -> (forall q, ~ own_page t (l_map l) q -> w_vm w' q = w_vm w1 q) ->
    grows a (add_live a w' l).
  Proof.
    intros A D B F O. pose proof A as [_ C _ _].
    assert (H1 : forall pg, map_holds (add_live a w' l) pg <-> map_holds a pg \/ own_page t (l_map l) pg).
    { intros pg. unfold map_holds. cbn. split.
      - intros (k & l0 & Hl & Ho). apply put_cases in Hl as [[_ ->]|[_ Hl]]; eauto.
      - intros [(k & l0 & Hl & Ho)|Ho].
        + exists k, l0. rewrite put_other; [auto|]. intros ->. rewrite C in Hl by lia. discriminate Hl.
        + exists (a_cnt a), l. rewrite put_same. auto. }
    assert (Dec : forall pg, own_page t (l_map l) pg \/ ~ own_page t (l_map l) pg) by (intros pg; unfold own_page; lia).
    split.
    - intros pg. cbn [add_live a_w]. rewrite H1. pose proof (held_mapped a pg A) as HM. pose proof (D pg) as Dp. destruct (Dec pg) as [Y|N].
      + destruct (bk_pages _ _ _ _ _ _ _ B pg Y) as (e & -> & _). split; [auto|discriminate].
      + rewrite (O pg N). tauto.
    - intros pg Hp. apply H1 in Hp as [Hp|Hp]; [auto|right]. apply (D pg), F, Hp.
    - intros pg Hp. apply H1. auto.
  Qed.

  Lemma map_if_grows op fd w r w' : wf w -> options_ok t op -> map_if t op fd w = (r, w') ->
    match r with
    | Ret (Some m) => exists w1 o off sh mx, dom w w1 /\ backed t w' m o off sh mx /\
        (forall q, own_page t m q -> w_vm w1 q = None) /\ (forall q, ~ own_page t m q -> w_vm w' q = w_vm w1 q)
    | _ => dom w w'
    end.
  Proof.
    intros W O E. apply (map_if_spec t Ht) in E; [|exact W|exact O]. destruct (w_fd w fd) as [f|].
    - destruct E as (w1 & FD & E).
      assert (D : dom w w1).
      { intros p. pose proof (tc_vm _ _ _ (fdn_touched _ _ _ _ _ FD) p) as T. destruct (w_vm w p), (w_vm w1 p); try tauto; split; discriminate. }
      destruct r as [[m|]|e| | |]; try contradiction E.
      + destruct E as (L & _ & _ & _ & _ & [B F R _] & _). exists w1. do 4 eexists. split; [exact D|]. split; [exact B|]. split; [exact F|exact R].
      + destruct E as (L & -> & _). exact D.
      + destruct E as [_ Q]. refine (dom_trans _ _ _ D _). apply dom_eq, (q_vm _ _ Q).
    - destruct E as (e & -> & _ & Q). apply dom_eq, (q_vm _ _ Q).
  Qed.

  Lemma wf_file_open oo path w : wf w -> wf (snd (file_open t oo path w)).
  Proof.
    intros W. destruct (file_open t oo path w) as [r w1] eqn:E. cbn [snd]. apply file_open_spec in E.
    destruct r as [fd|e| | |]; try contradiction E.
    - destruct E as [_ E]. destruct (open_extends t _ _ _ _ _ _ _ _ W E) as (_ & W1 & _). exact W1.
    - exact (wf_quiet _ _ W E).
  Qed.

  Lemma open_if_grows op path w r w' : wf w -> options_ok t op -> open_if t op path w = (r, w') ->
    match r with
    | Ret (Some m, _) => exists w1 o off sh mx, dom w w1 /\ backed t w' m o off sh mx /\
        (forall q, own_page t m q -> w_vm w1 q = None) /\ (forall q, ~ own_page t m q -> w_vm w' q = w_vm w1 q)
    | _ => dom w w'
    end.
  Proof.
    intros W O E. unfold open_if, sbind in E.
    pose proof (domly_file_open t (op_open op) path w) as D. pose proof (wf_file_open (op_open op) path w W) as W1.
    unfold io_call in *. destruct (file_open t (op_open op) path w) as [[fd|e| | |] w1]; cbn [snd] in *; try (injection E as <- <-; exact D).
    unfold closing in E. destruct (map_if t op fd w1) as [r2 w2] eqn:E2. pose proof (map_if_grows _ _ _ _ _ W1 O E2) as G.
    assert (Cl : forall w3, dom w3 (snd (sys_close fd w3))) by (intros; apply dom_eq; reflexivity).
    destruct r2 as [[m|]|e| | |]; cbn in E; injection E as <- <-.
    - destruct G as (w3 & o & off & sh & mx & G1 & G). exists w3, o, off, sh, mx. split; [exact (dom_trans _ _ _ D G1)|exact G].
    - exact (dom_trans _ _ _ D G).
    - exact (dom_trans _ _ _ D (dom_trans _ _ _ G (Cl w2))).
    - exact (dom_trans _ _ _ D (dom_trans _ _ _ G (Cl w2))).
    - exact (dom_trans _ _ _ D G).
    - exact (dom_trans _ _ _ D G).
  Qed.

  Lemma map_step_grows c a r a' : api_ok t a -> call_ok t c -> (forall k, c <> CDrop k) -> step t c a = (r, a') -> grows a a'.
  Proof.
    intros A CO N E. pose proof (ok_wf _ _ A) as W.
    assert (Same : forall w', dom (a_w a) w' -> grows a (set_w a w')) by (intros w' D; apply grows_same; auto).
    assert (Oth : (match c with COpen _ _ _ | CMap _ _ _ | CAlloc _ _ | CDrop _ => False | _ => True end) -> grows a a').
    { intros Hc. pose proof (dom_step t c a Hc) as [D L]. rewrite E in D, L. exact (grows_same _ _ A D L). }
    destruct c as [mut op path|mut op fd|mut op|fd|k|k|k i|k i b|k md|k off len md|k adv|k off len adv|k|k off len|k|k off len|k|o' pg|oe];
      try (apply Oth; exact Logic.I); cbn [step call_ok] in *.
    - destruct (open_if t op path (a_w a)) as [r1 w1] eqn:E1. pose proof (open_if_grows _ _ _ _ _ W CO E1) as G.
      destruct r1 as [[[m|] fd]|e| | |]; injection E as <- <-; try (apply Same; exact G).
      destruct G as (w2 & o & off & sh & mx & G1 & G2 & G3 & G4). eapply grows_new; try eassumption; assumption.
    - destruct (map_if t op fd (a_w a)) as [r1 w1] eqn:E1. pose proof (map_if_grows _ _ _ _ _ W CO E1) as G.
      destruct r1 as [[m|]|e| | |]; injection E as <- <-; try (apply Same; exact G).
      destruct G as (w2 & o & off & sh & mx & G1 & G2 & G3 & G4). eapply grows_new; try eassumption; assumption.
    - destruct CO as [O Fit]. destruct (alloc t op (a_w a)) as [r1 w1] eqn:E1. pose proof (alloc_spec t Ht _ _ _ _ W O Fit E1) as G.
      destruct r1 as [m|e| | |]; try contradiction G; injection E as <- <-.
      + destruct G as (_ & _ & _ & [B F R _] & _). eapply grows_new; try eassumption; try apply dom_refl; assumption.
      + apply Same, dom_eq, (q_vm _ _ (proj2 G)).
      + destruct G as [_ ->]. apply Same, dom_refl.
    - destruct (N k eq_refl).
  Qed.

  (** Dropping a map gives its pages back. *)
  Lemma map_drop_pages k l a r a' : api_ok t a -> a_live a k = Some l -> step t (CDrop k) a = (r, a') ->
    0 < m_len (l_map l) -> ~ refused_last (a_w a) (a_w a') ->
    a_live a' = put (a_live a) k None /\
    (forall pg, own_page t (l_map l) pg -> w_vm (a_w a') pg = None) /\
    (forall pg, ~ own_page t (l_map l) pg -> w_vm (a_w a') pg = w_vm (a_w a) pg).
  Proof.
    intros A Hl E L N. pose proof (ok_live _ _ A _ _ Hl) as B. cbn [step] in E. unfold with_map in E. rewrite Hl in E.
    destruct (drop_map t (l_map l) (a_w a)) as [r1 w1] eqn:Ed. destruct (MapOps.drop_spec t Ht _ _ _ _ _ _ _ _ _ B Ed) as [-> D].
    injection E as _ <-. split; [reflexivity|]. cbn [put_live a_w] in *. destruct D as [[Q [D|(x & D1 & D2)]]|(_ & _ & D)]; [lia| |exact D].
    exfalso. apply N. assert (Hc : 0 < page_count t (l_map l)).
    { unfold page_count. pose proof (npages_bounds t HP (m_ptr (l_map l) mod P + m_len (l_map l))). pose proof (bk_cnt _ _ _ _ _ _ _ B). nia. }
    destruct (w_orc (a_w a)) as [|[y|y] q] eqn:Eo.
    - left. rewrite <- D1. unfold sys_munmap, ask. rewrite Eo. exact Eo.
    - right. exists [], y. rewrite <- D1. unfold sys_munmap, ask. rewrite Eo. reflexivity.
    - destruct (munmap_grant t Ht (first_page t (l_map l)) _ _ _ _ Hc Eo) as (w2 & E2). rewrite E2 in D2. discriminate D2.
  Qed.

  Lemma ring_failed clock hint w e w' : wf w -> is_usize t hint -> ring_new t plat clock hint w = (Err e, w') ->
    (e_op e = RingPrimary \/ e_op e = RingSecondary -> ~ refused_last w w') -> forall pg, w_vm w' pg = w_vm w pg.
  Proof.
    intros W Hh E N. unfold ring_new, sbind, sout in E. pose proof (round_cases t Hg hint Hh) as Rc.
    destruct (size_round t (size_alloc t) hint) as [len|x| | |]; try contradiction Rc; try discriminate E.
    destruct (map_ring t plat clock len w) as [r1 w1] eqn:Em. apply (map_ring_spec t Hg plat clock) in Em; [|exact W|apply Rc].
    destruct r1 as [b|x| | |]; try discriminate E. injection E as -> ->. destruct Em as (_ & _ & _ & _ & _ & [V|(Op & Rf & _)]); [exact V|].
    destruct (N Op Rf).
  Qed.

  (** ** Nothing is left behind *)
  Record balanced (B : Z -> Prop) (p : proc) : Prop := {
    bl_pages : forall pg, w_vm (pc_w p) pg <> None <-> B pg \/ holds_page t p pg;
    bl_apart : forall pg, B pg -> holds_page t p pg -> False
  }.

  Lemma balanced_fresh w : balanced (mapped w) (fresh w).
  Proof.
    split.
    - intros pg. split; [auto|]. intros [H|[(k & h & H & _)|(k & l & H & _)]]; [exact H|discriminate H|discriminate H].
    - intros pg _ [(k & h & H & _)|(k & l & H & _)]; discriminate H.
  Qed.
  (** The same pages are mapped, the same things held. *)
  Lemma balanced_same B p w' : (forall pg, w_vm w' pg <> None <-> w_vm (pc_w p) pg <> None) -> balanced B p -> balanced B (pc_set_w p w').
  Proof.
    intros V [B1 B2]. split; [|exact B2]. intros pg. change (pc_w (pc_set_w p w')) with w'. rewrite V. apply B1.
  Qed.
  (** A ring more. *)
  Lemma balanced_new B p w' h n o m : pok t p -> balanced B p ->
    (forall pg, ring_page t h pg -> w_vm (pc_w p) pg = None) -> (forall pg, ~ ring_page t h pg -> w_vm w' pg = w_vm (pc_w p) pg) ->
    at_home t w' h n o m ->
    balanced B {| pc_a := set_w (pc_a p) w'; pc_ring := put (pc_ring p) (pc_cnt p) (Some h); pc_cnt := pc_cnt p + 1 |}.
  Proof.
    intros [A C R RR RM] [B1 B2] Fr Ot H.
    assert (Hl : forall pg, holds_page t {| pc_a := set_w (pc_a p) w'; pc_ring := put (pc_ring p) (pc_cnt p) (Some h); pc_cnt := pc_cnt p + 1 |} pg <->
      holds_page t p pg \/ ring_page t h pg).
    { intros pg. unfold holds_page. cbn [pc_ring pc_a set_w a_live]. split.
      - intros [(k & h0 & Hk & Hp)|Hm]; [|tauto]. apply put_cases in Hk as [[_ ->]|[_ Hk]]; [auto|]. left. left. eauto.
      - intros [[(k & h0 & Hk & Hp)|Hm]|Hp]; [left|tauto|left].
        + exists k, h0. rewrite put_other; [auto|]. intros ->. rewrite C in Hk by lia. discriminate Hk.
        + exists (pc_cnt p), h. rewrite put_same. auto. }
    assert (Dec : forall pg, ring_page t h pg \/ ~ ring_page t h pg) by (intros pg; unfold ring_page, ring_addr; lia).
    split.
    - intros pg. rewrite Hl. change (pc_w _) with w'. destruct (Dec pg) as [Y|N].
      + destruct (home_entry t Ht _ _ _ _ _ _ H Y) as (x & -> & _). split; [auto|discriminate].
      + rewrite (Ot pg N), (B1 pg). tauto.
    - intros pg Hw Hp. apply Hl in Hp as [Hp|Hp]; [exact (B2 pg Hw Hp)|]. apply (proj2 (B1 pg) (or_introl Hw)). exact (Fr pg Hp).
  Qed.
  (** A ring less. *)
  Lemma balanced_gone B p w' k h : pok t p -> balanced B p -> pc_ring p k = Some h ->
    (forall pg, ring_page t h pg -> w_vm w' pg = None) -> (forall pg, ~ ring_page t h pg -> w_vm w' pg = w_vm (pc_w p) pg) ->
    balanced B (pc_put p w' k None).
  Proof.
    intros [A C R RR RM] [B1 B2] Hk D1 D2.
    assert (Dec : forall pg, ring_page t h pg \/ ~ ring_page t h pg) by (intros pg; unfold ring_page, ring_addr; lia).
    assert (Ho : forall pg, holds_page t (pc_put p w' k None) pg <-> holds_page t p pg /\ ~ ring_page t h pg).
    { intros pg. unfold holds_page, pc_put. cbn [pc_ring pc_a set_w a_live]. split.
      - intros [(k2 & h2 & H2 & Hp)|(k2 & l2 & H2 & Hp)].
        + unfold put in H2. destruct (Z.eqb_spec k2 k) as [->|Nk]; [discriminate H2|]. split; [left; eauto|].
          intros Ho. exact (RR _ _ _ _ _ H2 Hk Nk Hp Ho).
        + split; [right; eauto|]. intros Ho. exact (RM _ _ _ _ _ Hk H2 Ho Hp).
      - intros [[(k2 & h2 & H2 & Hp)|Hm] No]; [left|right; exact Hm]. exists k2, h2. rewrite put_other; [auto|]. intros ->. congruence. }
    split.
    - intros pg. rewrite Ho. change (pc_w _) with w'. destruct (Dec pg) as [Y|N].
      + rewrite (D1 pg Y). split; [congruence|]. intros [Hw|[_ N]]; [|contradiction]. exfalso. apply (B2 pg Hw). left. eauto.
      + rewrite (D2 pg N), (B1 pg). tauto.
    - intros pg Hw Hp. apply Ho in Hp as [Hp _]. exact (B2 pg Hw Hp).
  Qed.

  Lemma balanced_step B c p : pok t p -> pcall_ok t c -> tidy t plat c p -> balanced B p -> balanced B (snd (pstep t plat c p)).
  Proof.
    intros K CO Td Bl. pose proof K as [A C R RR RM]. pose proof Bl as [B1 B2].
    assert (Quiet : forall w' rg cnt, (forall pg, w_vm w' pg <> None <-> w_vm (pc_w p) pg <> None) ->
      (forall pg, (exists k h, rg k = Some h /\ ring_page t h pg) <-> (exists k h, pc_ring p k = Some h /\ ring_page t h pg)) ->
      balanced B {| pc_a := set_w (pc_a p) w'; pc_ring := rg; pc_cnt := cnt |}).
    { intros w' rg cnt V Hr. split.
      - intros pg. unfold holds_page. cbn [pc_ring pc_a set_w a_live]. rewrite Hr. change (pc_w _) with w'. rewrite V. apply B1.
      - intros pg Hw Hh. apply (B2 pg Hw). unfold holds_page in *. cbn [pc_ring pc_a set_w a_live] in Hh. rewrite Hr in Hh. exact Hh. }
    assert (Call : forall k h h' w', pc_ring p k = Some h -> same_alloc h h' -> w_vm w' = w_vm (pc_w p) ->
      balanced B (pc_put p w' k (Some h'))).
    { intros k h h' w' Hk SA V. apply Quiet; [rewrite V; reflexivity|]. intros pg. split.
      - intros (k2 & h2 & H2 & Hp). apply put_cases in H2 as [[-> ->]|[_ H2]]; [|eauto]. exists k, h. split; [exact Hk|]. apply (page_same t h h' pg SA), Hp.
      - intros (k2 & h2 & H2 & Hp). destruct (Z.eq_dec k2 k) as [->|Nk].
        + exists k, h'. rewrite put_same. split; [reflexivity|]. apply (page_same t h h' pg SA). congruence.
        + exists k2, h2. rewrite put_other by exact Nk. auto. }
    assert (New : forall mk hint clock, is_usize t hint -> (forall pg len, h_alloc (mk pg len) = {| ra_ptr := pg; ra_len := len |}) ->
      (forall e, fst (new_ring t plat mk hint clock p) = ANew (Err e) -> e_op e = RingPrimary \/ e_op e = RingSecondary ->
         ~ refused_last (pc_w p) (pc_w (snd (new_ring t plat mk hint clock p)))) -> balanced B (snd (new_ring t plat mk hint clock p))).
    { intros mk hint clock Hh M Tn. unfold new_ring in *. destruct (ring_new t plat clock hint (pc_w p)) as [r w'] eqn:E.
      pose proof (ok_wf _ _ A) as W. destruct r as [b|e| | |]; cbn [fst snd] in *.
      - assert (Ea : h_alloc (mk (ra_ptr b) (ra_len b)) = b) by (rewrite M; destruct b; reflexivity).
        destruct (new_home t plat Ht _ _ _ _ _ _ W Hh E Ea) as (_ & _ & _ & Fr & Ot & n & H).
        exact (balanced_new B p w' _ _ _ _ K Bl Fr Ot H).
      - apply Quiet; [|reflexivity]. intros pg. rewrite (ring_failed _ _ _ _ _ W Hh E (Tn e eq_refl)). reflexivity.
      - apply Quiet; [|reflexivity]. destruct (ring_new_spec t Hg plat clock hint _ _ _ W Hh E) as [_ [Q _]]. rewrite (q_vm _ _ Q). reflexivity.
      - destruct (ring_new_spec t Hg plat clock hint _ _ _ W Hh E) as [_ []].
      - destruct (ring_new_spec t Hg plat clock hint _ _ _ W Hh E) as [_ []]. }
    unfold tidy in Td. destruct (pstep t plat c p) as [x p'] eqn:Ep. cbn [snd].
    destruct c as [c|hint clock|hint clock|k c|k c|k]; cbn [pstep] in Ep.
    - destruct (step t c (pc_a p)) as [r a'] eqn:E. injection Ep as <- <-. destruct CO as [CO _].
      assert (Dc : (exists k, c = CDrop k) \/ forall k, c <> CDrop k) by (destruct c; try (right; discriminate); eauto).
      destruct Dc as [(k & ->)|Nd].
      + destruct (a_live (pc_a p) k) as [l|] eqn:Hl.
        * destruct Td as [Tl Tr]. destruct (map_drop_pages k l _ _ _ A Hl E (Tl l eq_refl) Tr) as (L' & D1 & D2).
          assert (Dec : forall pg, own_page t (l_map l) pg \/ ~ own_page t (l_map l) pg) by (intros pg; unfold own_page; lia).
          assert (Ho : forall pg, holds_page t {| pc_a := a'; pc_ring := pc_ring p; pc_cnt := pc_cnt p |} pg <-> holds_page t p pg /\ ~ own_page t (l_map l) pg).
          { intros pg. unfold holds_page. cbn [pc_ring pc_a]. rewrite L'. split.
            - intros [(k2 & h & Hk & Hp)|(k2 & l2 & Hk & Hp)].
              + split; [left; eauto|]. intros Ho. exact (RM _ _ _ _ _ Hk Hl Hp Ho).
              + unfold put in Hk. destruct (Z.eqb_spec k2 k) as [->|Nk]; [discriminate Hk|]. split; [right; eauto|].
                intros Ho. exact (ok_apart _ _ A _ _ _ _ _ Hk Hl Nk Hp Ho).
            - intros [[Hr|(k2 & l2 & Hk & Hp)] No]; [left; exact Hr|right]. exists k2, l2. rewrite put_other; [auto|]. intros ->. congruence. }
          split.
          -- intros pg. rewrite Ho. change (pc_w _) with (a_w a'). destruct (Dec pg) as [Y|N].
             ++ rewrite (D1 pg Y). split; [congruence|]. intros [Hw|[_ N]]; [|contradiction]. exfalso. apply (B2 pg Hw). right. eauto.
             ++ rewrite (D2 pg N). change (a_w (pc_a p)) with (pc_w p). rewrite (B1 pg). tauto.
          -- intros pg Hw Hp. apply Ho in Hp as [Hp _]. exact (B2 pg Hw Hp).
        * cbn [step] in E. unfold with_map in E. rewrite Hl in E. injection E as _ <-. destruct p; exact Bl.
      + destruct (map_step_grows c _ _ _ A CO Nd E) as [G1 G2 G3]. unfold map_holds in *. split.
        * intros pg. change (pc_w _) with (a_w a'). rewrite (G1 pg). change (a_w (pc_a p)) with (pc_w p). rewrite (B1 pg). unfold holds_page. cbn [pc_ring pc_a].
          specialize (G3 pg). tauto.
        * intros pg Hw [Hr|Hm]; [exact (B2 pg Hw (or_introl Hr))|]. cbn [pc_a] in Hm. destruct (G2 pg Hm) as [H|H].
          -- exact (B2 pg Hw (or_intror H)).
          -- exact (proj2 (B1 pg) (or_introl Hw) H).
    - specialize (New (fun ptr len => HRing (kring_new ptr len)) hint clock CO (fun _ _ => eq_refl)). rewrite Ep in New. exact (New Td).
    - specialize (New (fun ptr len => HInf (kiring_new ptr len)) hint clock CO (fun _ _ => eq_refl)). rewrite Ep in New. exact (New Td).
    - destruct (pc_ring p k) as [[s|s]|] eqn:Hk; try (injection Ep as _ <-; exact Bl).
      destruct (kring_step t world (load t) (store t) c s (pc_w p)) as [r [s' w']] eqn:Es. injection Ep as _ <-.
      destruct (R _ _ Hk) as (Fs & n & o & m & H). destruct (ring_call t Ht _ _ _ _ _ _ _ _ _ H Fs CO Es) as (_ & SA & O & _).
      exact (Call _ _ _ _ Hk SA (oi_vm _ _ _ O)).
    - destruct (pc_ring p k) as [[s|s]|] eqn:Hk; try (injection Ep as _ <-; exact Bl).
      destruct (kiring_step t world (load t) (store t) c s (pc_w p)) as [r [s' w']] eqn:Es. injection Ep as _ <-.
      destruct (R _ _ Hk) as (Fs & n & o & m & H). destruct (inf_call t Ht _ _ _ _ _ _ _ _ _ H Fs CO Es) as (_ & SA & O & _).
      exact (Call _ _ _ _ Hk SA (oi_vm _ _ _ O)).
    - destruct (pc_ring p k) as [h|] eqn:Hk; [|injection Ep as _ <-; exact Bl].
      destruct (ring_drop t (h_alloc h) (pc_w p)) as [r w'] eqn:Ed. injection Ep as _ <-. destruct (R _ _ Hk) as (Fs & n & o & m & H).
      destruct (home_drop t Ht _ _ _ _ _ _ _ H Ed) as (_ & _ & _ & _ & _ & [(_ & D1 & D2)|[D _]]); [|destruct (Td D)].
      exact (balanced_gone B p w' k h K Bl Hk D1 D2).
  Qed.

  Lemma tidily_reached w p : tidily t plat w p -> preached t plat p.
  Proof. induction 1; [apply pr_start|apply pr_step]; assumption. Qed.
  Theorem tidily_balanced w p : tidily t plat w p -> balanced (mapped w) p.
  Proof.
    induction 1 as [W|p c T IH CO Td].
    - apply balanced_fresh.
    - apply balanced_step; try assumption. exact (preached_ok t plat Ht p (tidily_reached _ _ T)).
  Qed.
End Balance.
