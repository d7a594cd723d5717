(** The mapping properties, continued: maps over their whole life. *)
From Coq Require Import Lia.
From Verif Require Import Base ErrorModel SizeModel SizeProofs OsModel MapModel MapSpec OsProofs MapProofs MapCreate MapOps OthersModel ApiModel ApiSpec OthersProofs ApiProofs MapClaims MapClaims2.

(** Programs that leave the lengths of all files alone. *)
Definition same_sizes (w w' : world) : Prop := forall o, o_size (w_obj w' o) = o_size (w_obj w o).
Definition keeps_sizes {E A} (m : ST E A) : Prop := forall w r w', m w = (r, w') -> same_sizes w w'.

Lemma ks_sout {E A} (x : out E A) : keeps_sizes (sout x).
Proof. intros w r w' H o. injection H as _ <-. reflexivity. Qed.
Lemma ks_bind {E A B} (m : ST E A) (k : A -> ST E B) : keeps_sizes m -> (forall x, keeps_sizes (k x)) -> keeps_sizes (sbind m k).
Proof.
  intros Hm Hk w r w' H o. unfold sbind in H. destruct (m w) as [[x|e| | |] w1] eqn:E1; pose proof (Hm _ _ _ E1 o) as X;
    try (injection H as _ <-; exact X). rewrite <- X. exact (Hk x _ _ _ H o).
Qed.
Lemma ks_os {A} op (m : ST Z A) : keeps_sizes m -> keeps_sizes (os_call op m).
Proof.
  intros M w r w' H. apply os_call_inv in H. destruct r as [x|e| | |]; try exact (M _ _ _ H). destruct H as (x & H & _). exact (M _ _ _ H).
Qed.

Section Life.
  Variable t : target.
  Hypothesis Ht : posix_target t.
  Notation P := (t_page t).

  Lemma ks_range addr len ok f : keeps_sizes (on_range t addr len ok f).
  Proof.
    intros w r w' H o. unfold on_range in H. apply ask_inv in H. destruct H as [(e & -> & Q)|(x & q & Hq & H)].
    - rewrite (q_obj _ _ Q). reflexivity.
    - destruct (negb _); [injection H as _ <-; reflexivity|]. destruct (negb _); [injection H as _ <-; reflexivity|].
      destruct (fold_left _ _ _); injection H as _ <-; reflexivity.
  Qed.
  Lemma ks_msync addr len s : keeps_sizes (sys_msync t addr len s).
  Proof.
    intros w r w' H o. unfold sys_msync in H. apply ask_inv in H. destruct H as [(e & -> & Q)|(x & q & Hq & H)].
    - rewrite (q_obj _ _ Q). reflexivity.
    - destruct (negb _); [injection H as _ <-; reflexivity|]. destruct (negb _); [injection H as _ <-; reflexivity|].
      destruct s; injection H as _ <-; reflexivity.
  Qed.
  Lemma ks_munmap addr len : keeps_sizes (sys_munmap t addr len).
  Proof.
    intros w r w' H o. unfold sys_munmap in H. apply ask_inv in H. destruct H as [(e & -> & Q)|(x & q & Hq & H)].
    - rewrite (q_obj _ _ Q). reflexivity.
    - destruct (_ || _); injection H as _ <-; reflexivity.
  Qed.

  Definition foreign (c : call) : bool := match c with COther _ => true | _ => false end.
  Definition creates (c : call) : bool := match c with COpen _ _ _ | CMap _ _ _ | CAlloc _ _ => true | _ => false end.

  Lemma ks_whole m f : (forall p l, keeps_sizes (f p l)) -> keeps_sizes (whole t m f).
  Proof. intros F. unfold whole. apply ks_bind; [apply ks_sout|]. intros. apply F. Qed.
  Lemma ks_ranged op m off len f : (forall p l, keeps_sizes (f p l)) -> keeps_sizes (ranged t op m off len f).
  Proof.
    intros F. unfold ranged. apply ks_bind; [apply ks_sout|]. intros x. destruct (m_len m <? x); [apply ks_sout|].
    apply ks_bind; [apply ks_sout|]. intros. apply F.
  Qed.
  Lemma unit_sizes a m r a' : keeps_sizes m -> unit_call a (m (a_w a)) = (r, a') -> same_sizes (a_w a) (a_w a').
  Proof.
    intros K H. unfold unit_call in H. destruct (m (a_w a)) as [r1 w1] eqn:E. injection H as _ <-. exact (K _ _ _ E).
  Qed.
  Lemma convert_sizes m f w r w' : keeps_sizes f -> convert m f w = (r, w') -> same_sizes w w'.
  Proof.
    intros K H. apply convert_inv in H. destruct r as [x|[e x]| | |]; [exact (K _ _ _ (proj2 H))|exact (K _ _ _ (proj2 H))| | |]; exact (K _ _ _ H).
  Qed.

  Lemma step_sizes c a r a' : creates c = false -> foreign c = false -> step t c a = (r, a') -> same_sizes (a_w a) (a_w a').
  Proof.
    assert (R : same_sizes (a_w a) (a_w a)) by (intros o; reflexivity).
    intros N Nf. destruct c; try discriminate N; try discriminate Nf; cbn [step]; unfold with_map; try (destruct (a_live a k) as [l|]; [|intros H; injection H as _ <-; exact R]).
    - intros H. injection H as _ <-. intros o. reflexivity.
    - destruct (l_mut l); [intros H; injection H as _ <-; exact R|].
      destruct (into_map_mut t (l_map l) (a_w a)) as [[m|[e1 m]| | |] w'] eqn:E; intros H; injection H as _ <-;
        refine (convert_sizes _ _ _ _ _ _ E); (apply ks_bind; [apply ks_sout|intros; apply ks_os, ks_range]).
    - destruct (negb (l_mut l)); [intros H; injection H as _ <-; exact R|].
      destruct (into_map t (l_map l) (a_w a)) as [[m|[e1 m]| | |] w'] eqn:E; intros H; injection H as _ <-;
        refine (convert_sizes _ _ _ _ _ _ E); (apply ks_bind; [apply ks_sout|intros; apply ks_os, ks_range]).
    - unfold map_get. destruct ((0 <=? i) && (i <? m_len (l_map l))); [|intros H; injection H as _ <-; exact R].
      destruct (OsModel.load t (a_w a) _); intros H; injection H as _ <-; exact R.
    - destruct (l_mut l); [|intros H; injection H as _ <-; exact R]. apply unit_sizes.
      intros w r1 w' E o. unfold map_set in E. destruct ((0 <=? i) && (i <? m_len (l_map l))); [|injection E as _ <-; reflexivity].
      apply store_effect in E as [[_ ->]|(_ & _ & _ & _ & e & _ & _ & Z & _)]; [reflexivity|]. apply (Z o).
    - destruct (l_mut l); [|intros H; injection H as _ <-; exact R]. apply unit_sizes, ks_whole. intros. apply ks_os, ks_msync.
    - destruct (l_mut l); [|intros H; injection H as _ <-; exact R]. apply unit_sizes, ks_ranged. intros. apply ks_os, ks_msync.
    - apply unit_sizes, ks_whole. intros. apply ks_os, ks_range.
    - apply unit_sizes, ks_ranged. intros. apply ks_os, ks_range.
    - apply unit_sizes, ks_whole. intros. apply ks_os, ks_range.
    - apply unit_sizes, ks_ranged. intros. apply ks_os, ks_range.
    - apply unit_sizes, ks_whole. intros. apply ks_os, ks_range.
    - apply unit_sizes, ks_ranged. intros. apply ks_os, ks_range.
    - destruct (drop_map t (l_map l) (a_w a)) as [r1 w1] eqn:E.
      assert (S : same_sizes (a_w a) w1).
      { unfold drop_map in E. destruct (0 <? m_len (l_map l)); [|injection E as _ <-; exact R].
        destruct (size_bounds _ _ _ _) as [[p n]|e| | |]; try (injection E as _ <-; exact R).
        destruct (os_unmap t p n (a_w a)) as [r2 w2] eqn:E2. pose proof (ks_os _ _ (ks_munmap p n) _ _ _ E2) as S.
        destruct r2; injection E as _ <-; exact S. }
      destruct r1; intros H; injection H as _ <-; exact S.
    - intros H. injection H as _ <-. intros o'. cbn. unfold put. destruct (Z.eqb_spec o' o) as [->|]; reflexivity.
  Qed.

  (** Maps after a call that makes none: the same ones, perhaps retyped. *)
  Lemma step_lives c a r a' k' l' : creates c = false -> step t c a = (r, a') -> a_live a' k' = Some l' ->
    exists l, a_live a k' = Some l /\ (l' = l \/ (l' = set_mut l true /\ c = CToMut k' /\ l_mut l = false /\ exists s, r = Ret s) \/ l' = set_mut l false).
  Proof.
    assert (R : forall (x : live), a_live a k' = Some x -> exists l, a_live a k' = Some l /\
      (x = l \/ (x = set_mut l true /\ c = CToMut k' /\ l_mut l = false /\ exists s, r = Ret s) \/ x = set_mut l false)) by eauto.
    intros N. destruct c; try discriminate N; cbn [step]; unfold with_map; try (destruct (a_live a k) as [l|] eqn:Hl; [|intros H; injection H as _ <-; apply R]).
    all: unfold unit_call.
    - intros H. injection H as _ <-. apply R.
    - destruct (l_mut l) eqn:Hm; [intros H; injection H as _ <-; apply R|].
      destruct (into_map_mut t (l_map l) (a_w a)) as [[m|[e1 m]| | |] w'] eqn:E; intros H; injection H as <- <-; try apply R.
      intros X. apply put_cases in X as [[-> ->]|[_ X]]; [|exact (R _ X)]. exists l. split; [exact Hl|]. right. left. eauto.
    - destruct (negb (l_mut l)); [intros H; injection H as _ <-; apply R|].
      destruct (into_map t (l_map l) (a_w a)) as [[m|[e1 m]| | |] w'] eqn:E; intros H; injection H as <- <-; try apply R.
      intros X. apply put_cases in X as [[-> ->]|[_ X]]; [|exact (R _ X)]. exists l. auto.
    - destruct (map_get t (l_map l) i (a_w a)) as [[b|e| | |] w']; intros H; injection H as _ <-; apply R.
    - destruct (l_mut l); [|intros H; injection H as _ <-; apply R]. destruct (map_set _ _ _ _ _) as [r1 w1]. intros H. injection H as _ <-. apply R.
    - destruct (l_mut l); [|intros H; injection H as _ <-; apply R]. destruct (flush _ _ _ _) as [r1 w1]. intros H. injection H as _ <-. apply R.
    - destruct (l_mut l); [|intros H; injection H as _ <-; apply R]. destruct (flush_range _ _ _ _ _ _) as [r1 w1]. intros H. injection H as _ <-. apply R.
    - destruct (advise _ _ _ _) as [r1 w1]. intros H. injection H as _ <-. apply R.
    - destruct (advise_range _ _ _ _ _ _) as [r1 w1]. intros H. injection H as _ <-. apply R.
    - destruct (lock _ _ _) as [r1 w1]. intros H. injection H as _ <-. apply R.
    - destruct (lock_range _ _ _ _ _) as [r1 w1]. intros H. injection H as _ <-. apply R.
    - destruct (unlock _ _ _) as [r1 w1]. intros H. injection H as _ <-. apply R.
    - destruct (unlock_range _ _ _ _ _) as [r1 w1]. intros H. injection H as _ <-. apply R.
    - assert (D : forall w, put (a_live a) k None k' = Some l' -> a_live (put_live a w k None) k' = Some l' -> exists l0, a_live a k' = Some l0 /\
        (l' = l0 \/ (l' = set_mut l0 true /\ CDrop k = CToMut k' /\ l_mut l0 = false /\ exists s, r = Ret s) \/ l' = set_mut l0 false)).
      { intros w X _. unfold put in X. destruct (k' =? k); [discriminate X|]. exact (R _ X). }
      destruct (drop_map _ _ _) as [[u|e| | |] w1]; intros H; injection H as _ <-; intros X; exact (D w1 X X).
    - intros H. injection H as _ <-. apply R.
    - intros H. injection H as _ <-. apply R.
  Qed.

  (** ** Calls that create *)
  Definition words (w : world) : Prop := forall o, is_usize t (o_size (w_obj w o)).
  Definition grows (w w' : world) : Prop := w_next w <= w_next w' /\ forall o, o < w_next w -> o_size (w_obj w o) <= o_size (w_obj w' o).
  Definition no_shrink (o : options) : Prop :=
    op_truncate o = false /\ oo_truncate (op_open o) = false /\ (op_resize o = ExtEnd \/ exists n, op_resize o = ExtMin n).

  Lemma map_if_grows o fd w r w' : wf w -> words w -> options_ok t o -> no_shrink o -> map_if t o fd w = (r, w') ->
    words w' /\ grows w w'.
  Proof.
    intros W Wd O (T & _ & R) H. pose proof (map_if_spec t Ht _ _ _ _ _ W O H) as M.
    destruct (w_fd w fd) as [f|]; [|destruct M as (e & _ & _ & Q); unfold words, grows; rewrite (q_obj _ _ Q), (q_next _ _ Q); split; [exact Wd|split; [lia|intros; lia]]].
    destruct M as (w1 & FD & M).
    assert (Ob : w_obj w' = w_obj w1 /\ w_next w' = w_next w1).
    { destruct r as [[m|]|e| | |]; try contradiction M.
      - destruct M as (L & _ & _ & _ & _ & _ & []). auto.
      - destruct M as (L & -> & _). auto.
      - destruct M as (_ & []). auto. }
    destruct Ob as [Ob Nx]. unfold words, grows. rewrite Ob, Nx. destruct FD as [Tc _ Sz Sh].
    assert (G : forall o', is_usize t (o_size (w_obj w1 o')) /\ o_size (w_obj w o') <= o_size (w_obj w1 o')).
    { intros o'. destruct (Z.eq_dec o' (fd_obj f)) as [->|No].
      - split; [destruct Sz as [E|E]; [rewrite E; apply Wd|exact E]|].
        destruct (Z_lt_le_dec (o_size (w_obj w1 (fd_obj f))) (o_size (w_obj w (fd_obj f)))) as [Lt|Ge]; [|exact Ge]. exfalso.
        destruct (Sh (Wd _) Lt) as [X|[[n X]|[n X]]]; [congruence| |]; destruct R as [R|[k R]]; congruence.
      - rewrite (tc_obj _ _ _ Tc o' No). split; [apply Wd|lia]. }
    split; [intros o'; apply G|]. split; [rewrite (tc_next _ _ _ Tc); lia|]. intros o' _. apply G.
  Qed.
  Lemma zero_word : is_usize t 0.
  Proof. split; [lia|]. apply Z.pow_pos_nonneg; [lia|]. pose proof (bits_ge t Ht). lia. Qed.
  Lemma file_open_grows o path w r w' : wf w -> words w -> no_shrink o -> file_open t (op_open o) path w = (r, w') ->
    wf w' /\ words w' /\ grows w w'.
  Proof.
    intros W Wd (_ & T & _) H. pose proof (file_open_spec t _ _ _ _ _ H) as M. destruct r as [fd|e| | |]; try contradiction M.
    - destruct M as [_ So]. destruct (open_extends t _ _ _ _ _ _ _ _ W So) as (_ & W1 & _). split; [exact W1|].
      pose proof (open_spec t _ _ _ _ _ _ _ _ W So) as (_ & _ & ob & _ & _ & _ & Old). rewrite T in Old. cbn [andb] in Old.
      destruct (w_fs w path) as [o'|].
      + destruct Old as (_ & _ & w1 & Tc & Ob & _ & Nx & Sz & _). unfold words, grows. rewrite Ob, Nx.
        assert (G : same_sizes w w1). { intros o2. destruct (Z.eq_dec o2 o') as [->|No]; [exact Sz|rewrite (tc_obj _ _ _ Tc o2 No); reflexivity]. }
        split; [intros o2; rewrite G; apply Wd|]. split; [lia|]. intros o2 _. rewrite G. lia.
      + destruct Old as (_ & -> & Nx & _ & Ob). unfold words, grows. rewrite Ob, Nx. split; [|split; [lia|]].
        * intros o2. unfold put. destruct (o2 =? w_next w); [apply zero_word|apply Wd].
        * intros o2 Lt. rewrite put_other by lia. lia.
    - split; [exact (wf_quiet _ _ W M)|]. unfold words, grows. rewrite (q_obj _ _ M), (q_next _ _ M). split; [exact Wd|split; [lia|intros; lia]].
  Qed.
  Lemma grows_trans w1 w2 w3 : grows w1 w2 -> grows w2 w3 -> grows w1 w3.
  Proof. intros [N1 G1] [N2 G2]. split; [lia|]. intros o Lt. specialize (G1 o Lt). specialize (G2 o ltac:(lia)). lia. Qed.
  Lemma open_if_grows o path w r w' : wf w -> words w -> options_ok t o -> no_shrink o -> open_if t o path w = (r, w') ->
    words w' /\ grows w w'.
  Proof.
    intros W Wd O S H. unfold open_if, sbind, io_call in H. destruct (file_open t (op_open o) path w) as [r1 w1] eqn:Eo.
    destruct (file_open_grows _ _ _ _ _ W Wd S Eo) as (W1 & Wd1 & G1).
    destruct r1 as [fd|e| | |]; try (injection H as _ <-; auto).
    unfold closing in H. destruct (map_if t o fd w1) as [r2 w2] eqn:Em.
    destruct (map_if_grows _ _ _ _ _ W1 Wd1 O S Em) as (Wd2 & G2).
    destruct r2; injection H as _ <-; (split; [exact Wd2|eapply grows_trans; [exact G1|exact G2]]).
  Qed.
  Lemma alloc_grows o w r w' : wf w -> words w -> options_ok t o -> alloc_fits t o \/ t_checks t = true -> alloc t o w = (r, w') ->
    words w' /\ grows w w'.
  Proof.
    intros W Wd O Fit H. pose proof (alloc_spec t Ht _ _ _ _ W O Fit H) as M. destruct r as [m|e| | |]; try contradiction M.
    - destruct M as (_ & _ & _ & C & Nx & _ & _ & Ob & Sz). unfold words, grows. rewrite Ob, Nx. split; [|split; [lia|]].
      + intros o'. unfold put. destruct (o' =? w_next w); [|apply Wd]. cbn [o_size]. split; [|exact Sz].
        pose proof (page_count_pos t Ht _ _ _ _ _ _ (cr_backed _ _ _ _ _ _ _ _ C)). pose proof (P_pos t Ht). nia.
      + intros o' Lt. rewrite put_other by lia. lia.
    - destruct M as [_ Q]. unfold words, grows. rewrite (q_obj _ _ Q), (q_next _ _ Q). split; [exact Wd|split; [lia|intros; lia]].
    - destruct M as [_ ->]. split; [exact Wd|split; [lia|intros; lia]].
  Qed.

  (** ** C26 *)
  Record whole_life (a : api) : Prop := {
    wl_ok : api_ok t a;
    wl_words : words (a_w a);
    wl_fits : forall k l, a_live a k = Some l -> l_off l + m_len (l_map l) <= o_size (w_obj (a_w a) (l_obj l))
  }.
  Lemma live_old a k l : api_ok t a -> a_live a k = Some l -> l_obj l < w_next (a_w a).
  Proof.
    intros OK Hl. pose proof (ok_live _ _ OK k l Hl) as B. pose proof (page_count_pos t Ht _ _ _ _ _ _ B).
    destruct (bk_pages _ _ _ _ _ _ _ B (first_page t (l_map l))) as (e & Ev & <- & _); [unfold own_page; lia|].
    exact (wf_vm _ (ok_wf _ _ OK) _ _ Ev).
  Qed.
  Lemma in_file o L n : ~ out_of_file (op_len o) (op_offset o) L -> right_len (op_len o) (op_offset o) L n -> op_offset o + n <= L.
  Proof.
    unfold out_of_file, right_len. intros N R. destruct (op_len o) as [|k|k|k]; subst.
    - lia.
    - destruct (Z_lt_le_dec L (op_offset o + k)) as [X|X]; [elim N; right; exists k; auto|exact X].
    - lia.
    - lia.
  Qed.
  Lemma map_if_in o fd w m w' : wf w -> options_ok t o -> map_if t o fd w = (Ret (Some m), w') ->
    exists f, w_fd w fd = Some f /\ w_fd w' fd = Some f /\ op_offset o + m_len m <= o_size (w_obj w' (fd_obj f)) /\
    (forall p e, own_page t m p -> w_vm w' p = Some e -> p_w e = prot_writes (op_protect o)).
  Proof.
    intros W O H. pose proof (map_if_spec t Ht _ _ _ _ _ W O H) as M. destruct (map_if_extends t Ht _ _ _ _ _ W O H) as (_ & _ & F & _).
    destruct (w_fd w fd) as [f|] eqn:Hf; [|destruct M as (e & X & _); discriminate X]. exists f. split; [reflexivity|]. split; [rewrite F; exact Hf|].
    destruct M as (w1 & FD & L & FR & N & R & _ & C & SF). split.
    - rewrite (sf_obj _ _ SF). pose proof (fr_le _ _ _ _ _ _ FR). pose proof (in_file _ _ _ N R). lia.
    - intros p e Hp Ev. apply (cr_fresh _ _ _ _ _ _ _ _ C p e Hp Ev).
  Qed.

  (** What a creating call adds. *)
  Lemma create_cases c a r a' : api_ok t a -> call_ok t c -> creates c = true -> step t c a = (r, a') ->
    (forall k, a_live a' k = a_live a k) \/
    exists l, (forall k, a_live a' k = put (a_live a) (a_cnt a) (Some l) k) /\
      l_off l + m_len (l_map l) <= o_size (w_obj (a_w a') (l_obj l)) /\
      (forall p e, own_page t (l_map l) p -> w_vm (a_w a') p = Some e -> p_w e = prot_writes (l_prot l)) /\
      (asks_write c -> l_mut l = true -> prot_writes (l_prot l) = true).
  Proof.
    intros OK Ck N H. pose proof (ok_wf _ _ OK) as W. destruct c; try discriminate N; cbn [step call_ok asks_write] in *.
    - destruct (open_if t o path (a_w a)) as [[[[m|] fd]|e| | |] w'] eqn:E; injection H as _ <-; try (left; reflexivity). right.
      destruct (open_if_spec t Ht _ _ _ _ _ W Ck E) as (_ & _ & w1 & Eo & Em).
      destruct (file_open_spec t _ _ _ _ _ Eo) as [_ So]. destruct (open_extends t _ _ _ _ _ _ _ _ W So) as (_ & W1 & _).
      destruct (map_if_in _ _ _ _ _ W1 Ck Em) as (f & _ & Hf & In & Pw). eexists. split; [reflexivity|].
      unfold file_live, fd_object. cbn [l_off l_map l_obj l_prot l_mut]. cbn [a_w add_live]. rewrite Hf. split; [exact In|]. split; [exact Pw|].
      intros A M. rewrite M in A. exact A.
    - destruct (map_if t o fd (a_w a)) as [[[m|]|e| | |] w'] eqn:E; injection H as _ <-; try (left; reflexivity). right.
      destruct (map_if_in _ _ _ _ _ W Ck E) as (f & _ & Hf & In & Pw). eexists. split; [reflexivity|].
      unfold file_live, fd_object. cbn [l_off l_map l_obj l_prot l_mut]. cbn [a_w add_live]. rewrite Hf. split; [exact In|]. split; [exact Pw|].
      intros A M. rewrite M in A. exact A.
    - destruct (alloc t o (a_w a)) as [[m|e| | |] w'] eqn:E; injection H as _ <-; try (left; reflexivity). right.
      destruct Ck as [Ck Fit]. pose proof (alloc_spec t Ht _ _ _ _ W Ck Fit E) as (_ & _ & _ & C & _ & _ & _ & Ob & _).
      eexists. split; [reflexivity|]. cbn [l_off l_map l_obj l_prot l_mut]. cbn [a_w add_live]. split; [|split].
      + rewrite Ob, put_same. cbn [o_size]. destruct (bk_off _ _ _ _ _ _ _ (cr_backed _ _ _ _ _ _ _ _ C)) as [_ B1].
        pose proof (P_pos t Ht). rewrite Z.mod_mod in B1 by lia. pose proof (map_end t Ht m). pose proof (ptr_split t Ht m). lia.
      + intros p e Hp Ev. apply (cr_fresh _ _ _ _ _ _ _ _ C p e Hp Ev).
      + intros A M. rewrite M in A. exact A.
  Qed.

  (** Other processes that do not shorten files. *)
  Lemma others_grows e w : wf w -> words w -> other_ok e -> keeps_length t (COther e) -> words (others t e w) /\ grows w (others t e w).
  Proof.
    intros W Wd He Kl.
    assert (Id : words w /\ grows w w) by (split; [exact Wd|split; [lia|intros; lia]]).
    destruct e as [path|path|from to|path sz|path sz|path off d sync]; cbn [others other_ok keeps_length] in *; unfold at_name; try contradiction Kl.
    - destruct (w_fs w path); [exact Id|]. split; [|split; cbn; [lia|]].
      + intros o. cbn. unfold put. destruct (o =? w_next w); [apply zero_word|apply Wd].
      + intros o Lt. rewrite put_other by lia. lia.
    - exact Id.
    - destruct (w_fs w from); exact Id.
    - destruct (w_fs w path) as [o|]; [|exact Id]. destruct (Z.ltb_spec (o_size (w_obj w o)) sz) as [Lt|]; [|exact Id].
      destruct (resize_obj_spec t o sz w) as (_ & Nx & _ & _ & Ob & Sz & _). cbv zeta in *. split; [|split; [lia|]].
      + intros o'. destruct (Z.eq_dec o' o) as [->|No]; [rewrite Sz; exact Kl|rewrite (Ob _ No); apply Wd].
      + intros o' _. destruct (Z.eq_dec o' o) as [->|No]; [rewrite Sz; lia|rewrite (Ob _ No); lia].
    - destruct (w_fs w path) as [o|]; [|exact Id]. unfold write_obj.
      assert (S' : forall o', o_size (w_obj (write_obj o off d sync w) o') = o_size (w_obj w o')).
      { intros o'. cbn. unfold put. destruct (Z.eqb_spec o' o) as [->|]; reflexivity. }
      split; [intros o'; rewrite S'; apply Wd|split; [cbn; lia|intros o' _; rewrite S'; lia]].
  Qed.

  Lemma life_step c a : whole_life a -> call_ok t c -> keeps_length t c -> whole_life (snd (step t c a)).
  Proof.
    intros [OK Wd Fi] Ck Kl. pose proof (step_ok t Ht c a OK Ck) as OK'. destruct (step t c a) as [r a'] eqn:E. cbn [snd] in *.
    pose proof (ok_wf _ _ OK) as W. destruct (creates c) eqn:N.
    - assert (G : words (a_w a') /\ grows (a_w a) (a_w a')).
      { destruct c; try discriminate N; cbn [step call_ok keeps_length] in *.
        - destruct (open_if t o path (a_w a)) as [r1 w'] eqn:E1. pose proof (open_if_grows _ _ _ _ _ W Wd Ck Kl E1) as G.
          destruct r1 as [[[m|] fd]|e| | |]; injection E as _ <-; exact G.
        - destruct (map_if t o fd (a_w a)) as [r1 w'] eqn:E1. pose proof (map_if_grows _ _ _ _ _ W Wd Ck Kl E1) as G.
          destruct r1 as [[m|]|e| | |]; injection E as _ <-; exact G.
        - destruct (alloc t o (a_w a)) as [r1 w'] eqn:E1. pose proof (alloc_grows _ _ _ _ W Wd (proj1 Ck) (proj2 Ck) E1) as G.
          destruct r1 as [m|e| | |]; injection E as _ <-; exact G. }
      destruct G as [Wd' [_ G]]. split; [exact OK'|exact Wd'|]. intros k l Hl.
      assert (Old : a_live a k = Some l -> l_off l + m_len (l_map l) <= o_size (w_obj (a_w a') (l_obj l))).
      { intros Hl'. pose proof (Fi k l Hl'). pose proof (G (l_obj l) (live_old a k l OK Hl')). lia. }
      destruct (create_cases _ _ _ _ OK Ck N E) as [L|(l0 & L & In & _)]; rewrite L in Hl; [exact (Old Hl)|].
      apply put_cases in Hl as [[-> ->]|[_ Hl]]; [exact In|exact (Old Hl)].
    - destruct (foreign c) eqn:Nf.
      { destruct c; try discriminate Nf. cbn [step] in E. injection E as _ <-. destruct (others_grows e (a_w a) W Wd Ck Kl) as [Wd' [_ G]].
        split; [exact OK'|exact Wd'|]. cbn [a_live set_w a_w]. intros k l Hl. pose proof (Fi k l Hl). pose proof (G (l_obj l) (live_old a k l OK Hl)). lia. }
      pose proof (step_sizes _ _ _ _ N Nf E) as S. split; [exact OK'|intros o; rewrite S; apply Wd|]. intros k l' Hl'.
      destruct (step_lives _ _ _ _ _ _ N E Hl') as (l & Hl & X). rewrite S.
      destruct X as [->|[(-> & _)| ->]]; exact (Fi k l Hl).
  Qed.
  Lemma life_reached (ok : call -> Prop) a : (forall c, ok c -> keeps_length t c) -> reached_by t ok a -> whole_life a.
  Proof.
    intros K. induction 1 as [w W U|a c R IH Ck Ok].
    - split; [apply (reached_ok t Ht), reach_start, W|exact U|]. intros k l X. discriminate X.
    - apply life_step; auto.
  Qed.
  Lemma life_readable a k l i : whole_life a -> a_live a k = Some l -> 0 <= i < m_len (l_map l) -> exists b, read_at t a k i = Ret (SByte b).
  Proof.
    intros [OK _ Fi] Hl Hi. pose proof (ok_live _ _ OK k l Hl) as B. pose proof (Fi k l Hl).
    rewrite (read_at_live t a k l i Hl), (get_spec t Ht _ _ _ _ _ _ B i Hi) by lia. eexists. reflexivity.
  Qed.

  (** ** C57 *)
  Definition writable (a : api) : Prop := forall k l p e, a_live a k = Some l -> l_mut l = true ->
    own_page t (l_map l) p -> w_vm (a_w a) p = Some e -> p_w e = true.

  Lemma writable_step c a : api_ok t a -> writable a -> call_ok t c -> asks_write c -> writable (snd (step t c a)).
  Proof.
    intros OK Wr Ck As. destruct (step t c a) as [r a'] eqn:E. cbn [snd].
    intros k l' p e' Hl' Hm Hp Ev'.
    assert (Kept : forall l, a_live a k = Some l -> l_map l' = l_map l -> l_mut l = true ->
      (forall e, w_vm (a_w a) p = Some e -> exists e2, w_vm (a_w a') p = Some e2 /\ (p_w e = true -> p_w e2 = true)) -> p_w e' = true).
    { intros l Hl El Ml Kp. rewrite El in Hp. destruct (bk_pages _ _ _ _ _ _ _ (ok_live _ _ OK k l Hl) p Hp) as (e & Ev & _).
      destruct (Kp e Ev) as (e2 & Ev2 & X). rewrite Ev' in Ev2. injection Ev2 as <-. apply X. exact (Wr k l p e Hl Ml Hp Ev). }
    assert (Ext : extends (a_w a) (a_w a') -> forall e, w_vm (a_w a) p = Some e -> exists e2, w_vm (a_w a') p = Some e2 /\ (p_w e = true -> p_w e2 = true)).
    { intros X e Ev. destruct (ex_vm _ _ X p e Ev) as (e2 & Ev2 & (_ & _ & _ & Pw & _) & _). exists e2. split; [exact Ev2|]. rewrite Pw. auto. }
    destruct (creates c) eqn:N.
    - assert (X : extends (a_w a) (a_w a')).
      { destruct (step_kinds t Ht _ _ _ _ OK Ck E) as [X|l S X|k0 l0 l1 S L W|k0 l0 S|oe S]; try exact X; destruct c; try discriminate N; discriminate S. }
      destruct (create_cases _ _ _ _ OK Ck N E) as [L|(l0 & L & _ & Pw & Aw)]; rewrite L in Hl'.
      + exact (Kept l' Hl' eq_refl Hm (Ext X)).
      + apply put_cases in Hl' as [[-> ->]|[_ Hl']]; [|exact (Kept l' Hl' eq_refl Hm (Ext X))].
        rewrite (Pw p e' Hp Ev'). exact (Aw As Hm).
    - destruct (step_lives _ _ _ _ _ _ N E Hl') as (l & Hl & X).
      destruct X as [->|[(-> & -> & Ml & s & ->)| ->]]; [| |discriminate Hm].
      + destruct (step_kinds t Ht _ _ _ _ OK Ck E) as [X|l0 S X|k0 l0 l1 S L W|k0 l0 S L La _ [Q|(_ & D1 & D2)]|oe S X].
        * exact (Kept l Hl eq_refl Hm (Ext X)).
        * exact (Kept l Hl eq_refl Hm (Ext X)).
        * apply (Kept l Hl eq_refl Hm). intros e Ev. destruct (wi_in _ _ _ _ W p e Ev) as (e2 & Ev2 & (_ & _ & _ & _ & _ & Pw & _)). eauto.
        * apply (Kept l Hl eq_refl Hm). intros e Ev. rewrite (q_vm _ _ Q). eauto.
        * apply (Kept l Hl eq_refl Hm). intros e Ev.
          destruct (Z.eq_dec k k0) as [->|Nk]; [rewrite La, put_same in Hl'; discriminate Hl'|].
          rewrite D2; [eauto|]. intros Ow. exact (ok_apart _ _ OK _ _ _ _ _ Hl L Nk Hp Ow).
        * apply (Kept l Hl eq_refl Hm). intros e Ev. destruct (interfered_vm _ _ _ _ X Ev) as (e2 & Ev2 & (_ & _ & _ & Pw & _) & _). exists e2. rewrite Pw. auto.
      + destruct (to_mut_lemma t Ht _ _ _ _ _ OK Hl Ml E) as (_ & (_ & _ & Pw) & _). exact (proj1 (Pw p e' Hp Ev')).
  Qed.
  Lemma writable_reached (ok : call -> Prop) a : (forall c, ok c -> asks_write c) -> reached_by t ok a -> api_ok t a /\ writable a.
  Proof.
    intros K. induction 1 as [w W U|a c R IH Ck Ok].
    - split; [apply (reached_ok t Ht), reach_start, W|]. intros k l p e X. discriminate X.
    - destruct IH as [OK Wr]. split; [apply (step_ok t Ht); assumption|]. apply writable_step; auto.
  Qed.
  Lemma store_succeeds a k l i b : whole_life a -> writable a -> a_live a k = Some l -> l_mut l = true -> 0 <= i < m_len (l_map l) ->
    exists a', step t (CSet k i b) a = (Ret SNone, a').
  Proof.
    intros [OK _ Fi] Wr Hl Hm Hi. pose proof (Fi k l Hl).
    destruct (set_spec t Ht _ _ _ _ _ _ i b (ok_live _ _ OK k l Hl) Hi) as (e & Ev & Ow & G & _).
    destruct (G ltac:(lia) (Wr k l _ e Hl Hm Ow Ev)) as (w' & E & _).
    cbn [step]. unfold with_map. rewrite Hl, Hm, E. eexists. reflexivity.
  Qed.
End Life.
