(** Exactly what each access and each check does: loads and stores in any
    state a program reaches, and the arithmetic of the checks for every
    argument, in builds with and without overflow checks. *)
From Coq Require Import Lia.
From Verif Require Import Base ErrorModel SizeModel SizeProofs OsModel MapModel MapSpec OsProofs MapProofs MapCreate MapOps OthersModel ApiModel ApiSpec
  OthersProofs ApiProofs MapClaims MapClaims2 MapClaims5 SpanModel SpanSpec SpanProofs SpanMap RingMapModel OthersClaims.

(** Whether map [k] has ever been turned from a [Map] into a [MapMut] or back
    during the calls [h] made from [a]. *)
Fixpoint converted (t : target) (h : list call) (a : api) (k : Z) : bool :=
  match h with
  | [] => false
  | c :: h =>
    let a' := snd (step t c a) in
    match a_live a k, a_live a' k with
    | Some l, Some l' => negb (Bool.eqb (l_mut l) (l_mut l'))
    | _, _ => false
    end || converted t h a' k
  end.

Definition protect_eq_dec (p q : protect) : {p = q} + {p <> q}.
Proof. decide equality. Defined.

(** Permissions to write stay. *)
Definition same_w (w w' : world) : Prop := forall p e, w_vm w p = Some e -> exists e', w_vm w' p = Some e' /\ p_w e' = p_w e.
Definition keeps_w {E A} (m : ST E A) : Prop := forall w r w', m w = (r, w') -> same_w w w'.

Lemma same_w_eq w w' : w_vm w' = w_vm w -> same_w w w'.
Proof. intros H p e E. rewrite H. eauto. Qed.
Lemma same_w_trans w w1 w2 : same_w w w1 -> same_w w1 w2 -> same_w w w2.
Proof. intros H1 H2 p e E. destruct (H1 _ _ E) as (e1 & E1 & X1). destruct (H2 _ _ E1) as (e2 & E2 & X2). exists e2. split; [exact E2|congruence]. Qed.
Lemma kw_sout {E A} (x : out E A) : keeps_w (sout x).
Proof. intros w r w' H. injection H as _ <-. apply same_w_eq. reflexivity. Qed.
Lemma kw_bind {E A B} (m : ST E A) (k : A -> ST E B) : keeps_w m -> (forall x, keeps_w (k x)) -> keeps_w (sbind m k).
Proof.
  intros Hm Hk w r w' H. unfold sbind in H. destruct (m w) as [[x|e| | |] w1] eqn:E1; pose proof (Hm _ _ _ E1) as X;
    try (injection H as _ <-; exact X). exact (same_w_trans _ _ _ X (Hk x _ _ _ H)).
Qed.
Lemma kw_os {A} op (m : ST Z A) : keeps_w m -> keeps_w (os_call op m).
Proof.
  intros M w r w' H. apply os_call_inv in H. destruct r as [x|e| | |]; try exact (M _ _ _ H). destruct H as (x & H & _). exact (M _ _ _ H).
Qed.

Section Exact.
  Variable t : target.
  Hypothesis Ht : posix_target t.
  Notation P := (t_page t).

  Lemma kw_range addr len ok f : (forall e, p_w (f e) = p_w e) -> keeps_w (on_range t addr len ok f).
  Proof.
    intros F w r w' H. apply ask_inv in H as [(e & _ & Q)|(x & o & _ & H)]; [apply same_w_eq, (q_vm _ _ Q)|].
    assert (N : same_w w (set_orc w o)) by (apply same_w_eq; reflexivity).
    destruct (negb _); [injection H as _ <-; exact N|]. cbv zeta in H. destruct (negb _); [injection H as _ <-; exact N|].
    destruct (fold_left _ _ _) as [u|e| | |]; injection H as _ <-; try exact N.
    intros p e E. unfold map_range. cbn. destruct (in_pages _ _ p); rewrite E; cbn; eauto.
  Qed.
  Lemma kw_whole m f : (forall p l, keeps_w (f p l)) -> keeps_w (whole t m f).
  Proof. intros F. unfold whole. apply kw_bind; [apply kw_sout|]. intros. apply F. Qed.
  Lemma kw_ranged op m off len f : (forall p l, keeps_w (f p l)) -> keeps_w (ranged t op m off len f).
  Proof.
    intros F. unfold ranged. apply kw_bind; [apply kw_sout|]. intros x. destruct (m_len m <? x); [apply kw_sout|].
    apply kw_bind; [apply kw_sout|]. intros. apply F.
  Qed.
  Lemma kw_flush md p l : keeps_w (os_flush t p l md).
  Proof.
    apply kw_os. intros w r w' H. apply msync_spec in H. destruct r; try contradiction; apply same_w_eq; [apply H|exact (q_vm _ _ H)].
  Qed.
  Lemma kw_advise adv p l : keeps_w (os_advise t p l adv).
  Proof. apply kw_os, kw_range. intros e. destruct adv; reflexivity. Qed.
  Lemma kw_lock p l : keeps_w (os_lock t p l).
  Proof. apply kw_os, kw_range. reflexivity. Qed.
  Lemma kw_unlock p l : keeps_w (os_unlock t p l).
  Proof. apply kw_os, kw_range. reflexivity. Qed.
  Lemma kw_store {E} addr b : keeps_w (OsModel.store (E:=E) t addr b).
  Proof.
    intros w r w' H. apply store_effect in H as [[_ ->]|(_ & _ & _ & _ & e & Ev & Ew & _ & [(_ & V & _)|(_ & _ & c & V)])].
    - apply same_w_eq. reflexivity.
    - apply same_w_eq, V.
    - intros p e' E'. rewrite V. unfold put. destruct (Z.eqb_spec p (addr / P)) as [->|]; [|eauto].
      rewrite Ev in E'. injection E' as <-. eexists. split; reflexivity.
  Qed.

  (** A call that leaves a map as it is leaves its permissions. *)
  Lemma kw_unit a x r a' : (forall w1, x = (fst x, w1) -> same_w (a_w a) w1) -> unit_call a x = (r, a') -> same_w (a_w a) (a_w a').
  Proof. destruct x as [r1 w1]. intros H E. injection E as _ <-. apply (H w1). reflexivity. Qed.

  Lemma step_kept c a r a' k l p e : api_ok t a -> call_ok t c -> step t c a = (r, a') ->
    a_live a k = Some l -> a_live a' k = Some l -> own_page t (l_map l) p -> w_vm (a_w a) p = Some e ->
    exists e', w_vm (a_w a') p = Some e' /\ p_w e' = p_w e.
  Proof.
    intros OK Ck E Hl Hl' Hp Ev.
    destruct (step_kinds t Ht _ _ _ _ OK Ck E) as [X|l0 S X|k0 l0 l1 S L W|k0 l0 S L La _ [Q|(_ & D1 & D2)]|oe S X].
    - destruct (ex_vm _ _ X p e Ev) as (e2 & Ev2 & (_ & _ & _ & Pw & _) & _). eauto.
    - destruct (ex_vm _ _ X p e Ev) as (e2 & Ev2 & (_ & _ & _ & Pw & _) & _). eauto.
    - destruct (Z.eq_dec k k0) as [->|Nk].
      2:{ rewrite (wi_out _ _ _ _ W); [eauto|]. intros Ow. exact (ok_apart _ _ OK _ _ _ _ _ Hl L Nk Hp Ow). }
      assert (l0 = l) by congruence. subst l0. clear L.
      destruct c; try discriminate S; injection S as ->.
      + destruct (l_mut l) eqn:Hm.
        * cbn [step] in E. unfold with_map in E. rewrite Hl, Hm in E. injection E as _ <-. eauto.
        * destruct (to_mut_lemma t Ht _ _ _ _ _ OK Hl Hm E) as (_ & M & _). destruct r as [s|x| | |]; try contradiction M.
          -- destruct M as (_ & M & _). rewrite Hl' in M. injection M as M. rewrite M in Hm. discriminate Hm.
          -- rewrite (q_vm _ _ (proj2 (proj2 M))). eauto.
      + destruct (l_mut l) eqn:Hm.
        * destruct (to_map_lemma t Ht _ _ _ _ _ OK Hl Hm E) as (_ & M). destruct r as [s|x| | |]; try contradiction M.
          -- destruct M as (M & _). rewrite Hl' in M. injection M as M. rewrite M in Hm. discriminate Hm.
          -- rewrite (q_vm _ _ (proj2 (proj2 M))). eauto.
        * cbn [step] in E. unfold with_map in E. rewrite Hl, Hm in E. injection E as _ <-. eauto.
      + cbn [step] in E. unfold with_map in E. rewrite Hl in E. unfold map_get in E.
        destruct (_ && _); [destruct (OsModel.load _ _ _)|]; injection E as _ <-; eauto.
      + cbn [step] in E. unfold with_map in E. rewrite Hl in E. destruct (l_mut l); [|injection E as _ <-; eauto].
        unfold map_set in E. destruct (_ && _); [|injection E as _ <-; eauto].
        refine (kw_unit _ _ _ _ _ E p e Ev). intros w1 Hx. eapply kw_store. exact Hx.
      + cbn [step] in E. unfold with_map in E. rewrite Hl in E. destruct (l_mut l); [|injection E as _ <-; eauto].
        refine (kw_unit _ _ _ _ _ E p e Ev). intros w1 Hx. eapply kw_whole; [|exact Hx]. intros. apply kw_flush.
      + cbn [step] in E. unfold with_map in E. rewrite Hl in E. destruct (l_mut l); [|injection E as _ <-; eauto].
        refine (kw_unit _ _ _ _ _ E p e Ev). intros w1 Hx. eapply kw_ranged; [|exact Hx]. intros. apply kw_flush.
      + cbn [step] in E. unfold with_map in E. rewrite Hl in E.
        refine (kw_unit _ _ _ _ _ E p e Ev). intros w1 Hx. eapply kw_whole; [|exact Hx]. intros. apply kw_advise.
      + cbn [step] in E. unfold with_map in E. rewrite Hl in E.
        refine (kw_unit _ _ _ _ _ E p e Ev). intros w1 Hx. eapply kw_ranged; [|exact Hx]. intros. apply kw_advise.
      + cbn [step] in E. unfold with_map in E. rewrite Hl in E.
        refine (kw_unit _ _ _ _ _ E p e Ev). intros w1 Hx. eapply kw_whole; [|exact Hx]. intros. apply kw_lock.
      + cbn [step] in E. unfold with_map in E. rewrite Hl in E.
        refine (kw_unit _ _ _ _ _ E p e Ev). intros w1 Hx. eapply kw_ranged; [|exact Hx]. intros. apply kw_lock.
      + cbn [step] in E. unfold with_map in E. rewrite Hl in E.
        refine (kw_unit _ _ _ _ _ E p e Ev). intros w1 Hx. eapply kw_whole; [|exact Hx]. intros. apply kw_unlock.
      + cbn [step] in E. unfold with_map in E. rewrite Hl in E.
        refine (kw_unit _ _ _ _ _ E p e Ev). intros w1 Hx. eapply kw_ranged; [|exact Hx]. intros. apply kw_unlock.
      + cbn [step] in E. unfold with_map in E. rewrite Hl in E.
        destruct (drop_map t (l_map l) (a_w a)) as [[u|x| | |] w1]; injection E as _ <-; cbn in Hl'; rewrite put_same in Hl'; discriminate Hl'.
    - rewrite (q_vm _ _ Q). eauto.
    - destruct (Z.eq_dec k k0) as [->|Nk]; [rewrite La, put_same in Hl'; discriminate Hl'|].
      rewrite D2; [eauto|]. intros Ow. exact (ok_apart _ _ OK _ _ _ _ _ Hl L Nk Hp Ow).
    - destruct (interfered_vm _ _ _ _ X Ev) as (e2 & Ev2 & (_ & _ & _ & Pw & _) & _). eauto.
  Qed.

  (** The pages of a map can be written exactly if it was created with a
      protection for writing or converted since. *)
  Definition permits (a : api) (cv : Z -> bool) : Prop := forall k l p e, a_live a k = Some l ->
    own_page t (l_map l) p -> w_vm (a_w a) p = Some e -> p_w e = prot_writes (l_prot l) || cv k.

  Lemma to_map_only c a r a' k l : api_ok t a -> call_ok t c -> step t c a = (r, a') -> a_live a k = Some l -> l_mut l = true ->
    a_live a' k = Some (set_mut l false) -> c = CToMap k /\ exists s, r = Ret s.
  Proof.
    intros OK Ck E Hl Hm Hl'. assert (N : forall x, Some l = Some (set_mut x false) -> False).
    { intros x H. injection H as H. rewrite H in Hm. discriminate Hm. }
    assert (G : a_live a k = Some (set_mut l false) -> False) by (rewrite Hl; apply N).
    destruct (creates c) eqn:Nc.
    { exfalso. destruct (create_cases t Ht _ _ _ _ OK Ck Nc E) as [L|(l0 & L & _)]; rewrite L in Hl'; [exact (G Hl')|].
      apply put_cases in Hl' as [[-> _]|[_ Hl']]; [|exact (G Hl')].
      pose proof (ok_cnt _ _ OK (a_cnt a) (Z.le_refl _)). congruence. }
    assert (T : forall (w : world) k1 l1, a_live (put_live a w k1 (Some (set_mut l1 true))) k = Some (set_mut l false) -> False).
    { intros w k1 l1 H. cbn in H. apply put_cases in H as [[_ H]|[_ H]]; [|exact (G H)]. discriminate (f_equal l_mut H). }
    assert (D : forall (w : world) k1, a_live (put_live a w k1 None) k = Some (set_mut l false) -> False).
    { intros w k1 H. cbn in H. unfold put in H. destruct (k =? k1); [discriminate H|exact (G H)]. }
    destruct c; try discriminate Nc; cbn [step] in E; unfold with_map, unit_call in E;
      try (destruct (a_live a k0) as [l0|] eqn:Hl0; [|injection E as _ <-; destruct (G Hl')]).
    - injection E as _ <-. destruct (G Hl').
    - destruct (l_mut l0); [injection E as _ <-; destruct (G Hl')|].
      destruct (into_map_mut t (l_map l0) (a_w a)) as [[m|[e1 m]| | |] w']; injection E as _ <-; try destruct (G Hl'). destruct (T _ _ _ Hl').
    - destruct (negb (l_mut l0)); [injection E as _ <-; destruct (G Hl')|].
      destruct (into_map t (l_map l0) (a_w a)) as [[m|[e1 m]| | |] w']; injection E as <- <-; try destruct (G Hl').
      cbn in Hl'. apply put_cases in Hl' as [[-> _]|[_ Hl']]; [eauto|destruct (G Hl')].
    - destruct (map_get t (l_map l0) i (a_w a)) as [[m|e1| | |] w']; injection E as _ <-; destruct (G Hl').
    - destruct (l_mut l0); [destruct (map_set t (l_map l0) i b (a_w a)) as [rr w']|]; injection E as _ <-; destruct (G Hl').
    - destruct (l_mut l0); [destruct (flush t (l_map l0) mode (a_w a)) as [rr w']|]; injection E as _ <-; destruct (G Hl').
    - destruct (l_mut l0); [destruct (flush_range t (l_map l0) off len mode (a_w a)) as [rr w']|]; injection E as _ <-; destruct (G Hl').
    - destruct (advise t (l_map l0) adv (a_w a)) as [rr w']; injection E as _ <-; destruct (G Hl').
    - destruct (advise_range t (l_map l0) off len adv (a_w a)) as [rr w']; injection E as _ <-; destruct (G Hl').
    - destruct (lock t (l_map l0) (a_w a)) as [rr w']; injection E as _ <-; destruct (G Hl').
    - destruct (lock_range t (l_map l0) off len (a_w a)) as [rr w']; injection E as _ <-; destruct (G Hl').
    - destruct (unlock t (l_map l0) (a_w a)) as [rr w']; injection E as _ <-; destruct (G Hl').
    - destruct (unlock_range t (l_map l0) off len (a_w a)) as [rr w']; injection E as _ <-; destruct (G Hl').
    - destruct (drop_map t (l_map l0) (a_w a)) as [[m|e1| | |] w']; injection E as _ <-; destruct (D _ _ Hl').
    - injection E as _ <-. destruct (G Hl').
    - injection E as _ <-. destruct (G Hl').
  Qed.

  (** The ghost record of conversions, one call further. *)
  Definition turned (c : call) (a : api) (k : Z) : bool :=
    match a_live a k, a_live (snd (step t c a)) k with
    | Some l, Some l' => negb (Bool.eqb (l_mut l) (l_mut l'))
    | _, _ => false
    end.

  Lemma permits_step c a cv : api_ok t a -> call_ok t c -> (forall k, a_cnt a <= k -> cv k = false) -> permits a cv ->
    permits (snd (step t c a)) (fun k => turned c a k || cv k) /\
    (forall k, a_cnt (snd (step t c a)) <= k -> turned c a k || cv k = false).
  Proof.
    intros OK Ck Fr Pm. unfold turned. destruct (step t c a) as [r a'] eqn:E. cbn [snd].
    assert (Kept : forall k l p e, a_live a k = Some l -> a_live a' k = Some l -> own_page t (l_map l) p -> w_vm (a_w a') p = Some e ->
      p_w e = prot_writes (l_prot l) || (negb (Bool.eqb (l_mut l) (l_mut l)) || cv k)).
    { intros k l p e' Hl Hl' Hp Ev'. destruct (bk_pages _ _ _ _ _ _ _ (ok_live _ _ OK k l Hl) p Hp) as (e & Ev & _).
      destruct (step_kept _ _ _ _ _ _ _ _ OK Ck E Hl Hl' Hp Ev) as (e2 & Ev2 & X). rewrite Ev' in Ev2. injection Ev2 as <-.
      rewrite X, (Pm k l p e Hl Hp Ev). destruct (l_mut l); reflexivity. }
    assert (Cn : a_cnt a <= a_cnt a' /\ forall k, a_cnt a' <= k -> a_live a k = None).
    { assert (a_cnt a <= a_cnt a') by (destruct (step_kinds t Ht _ _ _ _ OK Ck E); lia). split; [assumption|]. intros k Hk. apply (ok_cnt _ _ OK). lia. }
    split; [|intros k Hk; rewrite (proj2 Cn k Hk); cbn; apply Fr; lia].
    intros k l' p e' Hl' Hp Ev'. rewrite Hl'. destruct (creates c) eqn:N.
    - destruct (create_cases t Ht _ _ _ _ OK Ck N E) as [L|(l0 & L & _ & Pw & _)].
      + assert (Hl : a_live a k = Some l') by (rewrite <- L; exact Hl'). rewrite Hl. exact (Kept k l' p e' Hl Hl' Hp Ev').
      + pose proof Hl' as Hx. rewrite L in Hx. apply put_cases in Hx as [[-> ->]|[_ Hl]].
        * rewrite (ok_cnt _ _ OK (a_cnt a)) by lia. rewrite (Fr (a_cnt a)) by lia. cbn. rewrite orb_false_r. exact (Pw p e' Hp Ev').
        * rewrite Hl. exact (Kept k l' p e' Hl Hl' Hp Ev').
    - destruct (step_lives t _ _ _ _ _ _ N E Hl') as (l & Hl & X). rewrite Hl.
      destruct X as [->|[(-> & -> & Ml & s & ->)| ->]].
      + exact (Kept k l p e' Hl Hl' Hp Ev').
      + destruct (to_mut_lemma t Ht _ _ _ _ _ OK Hl Ml E) as (_ & (_ & _ & Pw) & _). rewrite Ml. cbn [set_mut l_mut l_prot Bool.eqb negb orb].
        rewrite orb_true_r. exact (proj1 (Pw p e' Hp Ev')).
      + destruct (l_mut l) eqn:Ml.
        * destruct (to_map_only _ _ _ _ _ _ OK Ck E Hl Ml Hl') as [-> (s & ->)].
          destruct (to_map_lemma t Ht _ _ _ _ _ OK Hl Ml E) as (_ & (_ & Pw)). cbn [set_mut l_mut l_prot Bool.eqb negb orb].
          rewrite orb_true_r. destruct (Pw p Hp) as (e2 & Ev2 & X). congruence.
        * assert (El : set_mut l false = l) by (destruct l; cbn in *; subst; reflexivity). rewrite El in *.
          pose proof (Kept k l p e' Hl Hl' Hp Ev') as K. rewrite Ml in K |- *. exact K.
  Qed.

  Lemma permits_run h : forall a cv, api_ok t a -> Forall (call_ok t) h -> (forall k, a_cnt a <= k -> cv k = false) -> permits a cv ->
    api_ok t (run t h a) /\ permits (run t h a) (fun k => converted t h a k || cv k).
  Proof.
    induction h as [|c h IH]; intros a cv OK Fa Fr Pm; [split; assumption|].
    inversion_clear Fa as [|? ? Ck Fh]. destruct (permits_step c a cv OK Ck Fr Pm) as [Pm' Fr'].
    destruct (IH _ _ (step_ok t Ht _ _ OK Ck) Fh Fr' Pm') as [OK2 Pm2]. split; [exact OK2|].
    intros k l p e Hl Hp Ev. cbn [run] in *. rewrite (Pm2 k l p e Hl Hp Ev). f_equal.
    cbn [converted]. fold (turned c a k). destruct (turned c a k), (converted t h _ k); reflexivity.
  Qed.

  (** Loads. *)
  Lemma load_exact a k l i : api_ok t a -> a_live a k = Some l ->
    (~ 0 <= i < m_len (l_map l) -> read_at t a k i = Panic) /\
    (0 <= i < m_len (l_map l) ->
      (read_at t a k i = Fault <-> o_size (w_obj (a_w a) (l_obj l)) <= P * ((l_off l + i) / P)) /\
      (P * ((l_off l + i) / P) < o_size (w_obj (a_w a) (l_obj l)) -> exists b, read_at t a k i = Ret (SByte b) /\
         (l_shared l = true -> b = o_data (w_obj (a_w a) (l_obj l)) (l_off l + i)))).
  Proof.
    intros OK Hl. split.
    - intros Hi. rewrite (read_at_live t a k l i Hl). unfold map_get.
      destruct (Z.leb_spec 0 i), (Z.ltb_spec i (m_len (l_map l))); try lia; reflexivity.
    - intros Hi. rewrite (read_exact t Ht a k l i OK Hl Hi). split.
      + destruct (Z.leb_spec (o_size (w_obj (a_w a) (l_obj l))) (P * ((l_off l + i) / P))); split; intros; try lia; try reflexivity. discriminate.
      + intros Lt. destruct (Z.leb_spec (o_size (w_obj (a_w a) (l_obj l))) (P * ((l_off l + i) / P))); [lia|].
        eexists. split; [reflexivity|]. intros Sh. pose proof (ok_live _ _ OK k l Hl) as B.
        destruct (byte_entry t Ht _ _ _ _ _ _ B i Hi) as (e & E & _ & _ & _ & _ & _ & _ & C). unfold shown. rewrite E, (C Sh). reflexivity.
  Qed.

  (** Stores. *)
  Lemma store_exact h w k l i b : wf w -> Forall (call_ok t) h -> let a := run t h (no_maps w) in
    a_live a k = Some l -> l_mut l = true ->
    (~ 0 <= i < m_len (l_map l) -> step t (CSet k i b) a = (Panic, a)) /\
    (0 <= i < m_len (l_map l) ->
      let bad := o_size (w_obj (a_w a) (l_obj l)) <= P * ((l_off l + i) / P) \/
                 (prot_writes (l_prot l) = false /\ converted t h (no_maps w) k = false) in
      (bad -> step t (CSet k i b) a = (Fault, a)) /\
      (~ bad -> fst (step t (CSet k i b) a) = Ret SNone)).
  Proof.
    intros W Fa a Hl Hm.
    assert (Em : a_w a = a_w a) by reflexivity. assert (Ea : set_w a (a_w a) = a) by (destruct a; reflexivity).
    destruct (permits_run h (no_maps w) (fun _ => false)) as [OK Pm]; auto.
    { apply (reached_ok t Ht), reach_start, W. }
    { intros k0 l0 p e X. discriminate X. }
    fold a in OK, Pm. cbn [step]. unfold with_map. rewrite Hl, Hm. split.
    - intros Hi. unfold map_set. destruct (Z.leb_spec 0 i), (Z.ltb_spec i (m_len (l_map l))); try lia; cbn [andb unit_call]; rewrite Ea; reflexivity.
    - intros Hi. cbv zeta. pose proof (ok_live _ _ OK k l Hl) as B.
      destruct (byte_page t Ht _ _ _ _ _ _ B i Hi) as (Ep & Ow & I1 & I2).
      destruct (bk_pages _ _ _ _ _ _ _ B _ Ow) as (e & Ev & Eo & Ei & Es & Emx & Er & Ec).
      pose proof (Pm k l _ e Hl Ow Ev) as Pw. cbv beta in Pw. rewrite orb_false_r in Pw.
      assert (Q : map_set t (l_map l) i b (a_w a) = OsModel.store t (m_ptr (l_map l) + i) b (a_w a)).
      { unfold map_set. rewrite (proj2 (Z.leb_le 0 i)), (proj2 (Z.ltb_lt i (m_len (l_map l)))) by lia. cbn [andb]. rewrite Ep. reflexivity. }
      rewrite Q. unfold OsModel.store. rewrite Ev, Pw, Eo, Ei, I1. cbv zeta. split.
      + intros [Sz|[-> ->]]; [|cbn; rewrite Ea; reflexivity].
        destruct (negb _); [cbn; rewrite Ea; reflexivity|]. rewrite (proj2 (Z.leb_le _ _) Sz). cbn. rewrite Ea. reflexivity.
      + intros Nb. assert (Yw : prot_writes (l_prot l) || converted t h (no_maps w) k = true).
        { destruct (prot_writes (l_prot l)) eqn:E1, (converted t h (no_maps w) k) eqn:E2; try reflexivity. destruct Nb. right. auto. }
        rewrite Yw. cbn [negb]. destruct (Z.leb_spec (o_size (w_obj (a_w a) (l_obj l))) (P * ((l_off l + i) / P))) as [Le|Lt]; [destruct Nb; left; exact Le|].
        destruct (p_shared e); reflexivity.
  Qed.

  (** ** Sub-ranges, for every offset and length, in every build *)
  Lemma ranged_wraps op m off len f w0 w o off' shared maxw : backed t w m o off' shared maxw ->
    is_usize t off -> is_usize t len -> t_checks t = false -> 2 ^ t_bits t <= off + len ->
    (m_len m < off + len - 2 ^ t_bits t -> ranged t op m off len f w0 = (Err (error_input op InvalidRange), w0)) /\
    (off + len - 2 ^ t_bits t <= m_len m -> P <= m_ptr m + off - 2 ^ t_bits t ->
       exists first n, ranged t op m off len f w0 = f (P * first) (P * n) w0 /\
         P * first <= m_ptr m + off - 2 ^ t_bits t < P * (first + 1) /\
         m_ptr m + off - 2 ^ t_bits t + len <= P * (first + n) < m_ptr m + off - 2 ^ t_bits t + len + P).
  Proof.
    intros B [O1 O2] [L1 L2] Ck Ge. pose proof (P_pos t Ht) as HP.
    pose proof (map_end t Ht m) as ME. pose proof (bk_hi _ _ _ _ _ _ _ B). pose proof (bk_lo _ _ _ _ _ _ _ B).
    assert (Hs : uadd (E:=error) t off len = Ret (off + len - 2 ^ t_bits t)).
    { unfold uadd. rewrite wrap_out by lia. rewrite Ck. f_equal. rewrite <- (Z.mod_add _ (-1)) by lia. rewrite Z.mod_small by lia. lia. }
    unfold ranged, sbind, sout. rewrite Hs. split.
    - intros Gt. rewrite (proj2 (Z.ltb_lt _ _) Gt). reflexivity.
    - intros Le Lo. destruct (Z.ltb_spec (m_len m) (off + len - 2 ^ t_bits t)); [lia|]. unfold size_page.
      assert (Ep : ptr_add t (m_ptr m) off = m_ptr m + off - 2 ^ t_bits t).
      { unfold ptr_add, as_usize. rewrite <- (Z.mod_add _ (-1)) by lia. rewrite Z.mod_small by lia. lia. }
      rewrite Ep. set (q := m_ptr m + off - 2 ^ t_bits t) in *. pose proof (page_div t Ht q) as [D1 D2].
      pose proof (npages_bounds t HP (q mod P + len)) as NB.
      assert (F : 1 <= q / P) by nia.
      exists (q / P), (npages t (q mod P + len)). split.
      { rewrite (size_bounds_in t (bits_pos0 t Ht) P (P_pow2 t Ht) (P_word t Ht)); try (unfold is_usize; nia).
        unfold npages. rewrite (Z.add_comm len (q mod P)). reflexivity. }
      lia.
  Qed.

  Lemma range_wraps c k off len op a l : api_ok t a -> range_call c = Some (k, off, len, op) -> a_live a k = Some l ->
    (is_flush c = true -> l_mut l = true) -> is_usize t off -> is_usize t len -> t_checks t = false -> 2 ^ t_bits t <= off + len ->
    (m_len (l_map l) < off + len - 2 ^ t_bits t -> step t c a = (Err {| e_repr := RInput InvalidRange; e_op := op |}, a)) /\
    (off + len - 2 ^ t_bits t <= m_len (l_map l) -> P <= m_ptr (l_map l) + off - 2 ^ t_bits t ->
       exists first n, step t c a = unit_call a (range_sys t c (P * first) (P * n) (a_w a)) /\
         P * first <= m_ptr (l_map l) + off - 2 ^ t_bits t < P * (first + 1) /\
         m_ptr (l_map l) + off - 2 ^ t_bits t + len <= P * (first + n) < m_ptr (l_map l) + off - 2 ^ t_bits t + len + P).
  Proof.
    intros OK Hc Hl Hf U1 U2 Ck Ge. pose proof (ok_live _ _ OK k l Hl) as B.
    assert (Ea : set_w a (a_w a) = a) by (destruct a; reflexivity).
    destruct (ranged_wraps op (l_map l) off len (range_sys t c) (a_w a) _ _ _ _ _ B U1 U2 Ck Ge) as [R1 R2].
    rewrite (step_range t _ _ _ _ _ _ _ Hc Hl Hf), (range_run_eq t _ _ _ _ _ (l_map l) Hc). split.
    - intros Gt. rewrite (R1 Gt). cbn. rewrite Ea. reflexivity.
    - intros Le Lo. destruct (R2 Le Lo) as (first & n & -> & X). eauto.
  Qed.

  (** ** Anonymous maps of any size, without overflow checks *)
  Lemma mod_once x : 2 ^ t_bits t <= x < 2 * 2 ^ t_bits t -> x mod 2 ^ t_bits t = x - 2 ^ t_bits t.
  Proof. intros H. rewrite <- (Z.mod_add _ (-1)) by lia. rewrite Z.mod_small by lia. lia. Qed.

  (** An anonymous mapping of [total] bytes, then the map built on it. *)
  Definition anon_tail (off n total : Z) (p : protect) : ST error mapping :=
    sbind (os_map_anon t total p) (fun ptr => sret {| m_ptr := ptr_add t ptr off; m_len := n |}).

  Lemma anon_none off n total p w m w' : wf w -> total = 0 \/ total = 2 ^ t_bits t - P -> anon_tail off n total p w <> (Ret m, w').
  Proof.
    intros W Ht0 H. pose proof (P_pos t Ht) as HP. unfold anon_tail, sbind in H.
    destruct (protect_eq_dec p ReadOnly) as [->|Np].
    { destruct (os_map_anon_ro t total w W) as (e & w1 & E & _). rewrite E in H. discriminate H. }
    rewrite (os_map_anon_eq t total p Np) in H. destruct (os_call _ _ w) as [r w1] eqn:E. apply os_call_inv in E.
    destruct r as [a|e| | |]; try discriminate H. apply mmap_spec in E. destruct E as (_ & _ & M & _).
    pose proof (mp_len _ _ _ _ _ _ _ _ _ _ M) as Lp. pose proof (mp_range _ _ _ _ _ _ _ _ _ _ M) as Rg.
    destruct Ht0 as [->| ->]; [lia|]. unfold range_ok in Rg. apply andb_true_iff in Rg as [Rg R3]. apply andb_true_iff in Rg as [R1 _].
    apply Z.leb_le in R1, R3. pose proof (npages_bounds t HP (2 ^ t_bits t - P)). lia.
  Qed.
  Lemma anon_one off n total p w m w' : wf w -> 0 <= off < P -> 0 < total <= P -> anon_tail off n total p w = (Ret m, w') ->
    m_len m = n /\ m_ptr m mod P = off /\ w_vm w (m_ptr m / P) = None /\
    (forall pg, w_vm w' pg = if pg =? m_ptr m / P then Some (entry (w_next w) 0 (prot_bits p) (prot_shares p) true) else w_vm w pg) /\
    o_size (w_obj w' (w_next w)) = P /\ (forall i, o_data (w_obj w' (w_next w)) i = 0).
  Proof.
    intros W Ho Htot H. pose proof (P_pos t Ht) as HP. unfold anon_tail, sbind in H.
    destruct (protect_eq_dec p ReadOnly) as [->|Np].
    { destruct (os_map_anon_ro t total w W) as (e & w1 & E & _). rewrite E in H. discriminate H. }
    rewrite (os_map_anon_eq t total p Np) in H. destruct (os_call _ _ w) as [r w1] eqn:E. apply os_call_inv in E.
    destruct r as [a|e| | |]; try discriminate H. injection H as <- <-. cbn [m_len m_ptr].
    apply mmap_spec in E. destruct E as (_ & _ & M & _ & Ob).
    pose proof (mp_range _ _ _ _ _ _ _ _ _ _ M) as Rg. unfold range_ok in Rg. apply andb_true_iff in Rg as [Rg R3]. apply andb_true_iff in Rg as [R1 R2].
    apply Z.leb_le in R1, R3. apply Z.eqb_eq in R2.
    assert (N1 : npages t total = 1) by (apply npages_unique; lia). rewrite N1 in *.
    assert (Ep : ptr_add t a off = a + off) by (unfold ptr_add, as_usize; apply Z.mod_small; lia). rewrite Ep.
    pose proof (page_div t Ht a) as [D _]. rewrite R2 in D.
    assert (Da : (a + off) / P = a / P) by (symmetry; apply (Z.div_unique _ _ _ off); lia).
    assert (Ma : (a + off) mod P = off) by (symmetry; apply (Z.mod_unique _ _ (a / P)); lia).
    rewrite Da, Ma. split; [reflexivity|]. split; [reflexivity|]. split; [apply (mp_free _ _ _ _ _ _ _ _ _ _ M); rewrite N1; lia|]. split.
    - intros pg. rewrite (mp_vm _ _ _ _ _ _ _ _ _ _ M), N1. destruct (in_pages_cases (a / P) 1 pg) as [[-> Ip]|[-> Ip]]; destruct (Z.eqb_spec pg (a / P)); try lia.
      + f_equal. rewrite Z.div_0_l by lia. f_equal. lia.
      + reflexivity.
    - rewrite Ob, put_same. cbn [o_size o_data]. try rewrite N1. split; [lia|reflexivity].
  Qed.

  Lemma alloc_wraps o w m w' : wf w -> options_ok t o -> t_checks t = false -> ~ alloc_fits t o -> alloc t o w = (Ret m, w') ->
    let off := op_offset o mod P in
    match op_len o with
    | ExtEnd => False
    | ExtMin l => 2 ^ t_bits t < off + l /\ m_len m = P - off
    | ExtExact l | ExtMax l => 2 ^ t_bits t < off + l /\ m_len m = l
    end /\
    m_ptr m mod P = off /\ w_vm w (m_ptr m / P) = None /\
    (forall pg, w_vm w' pg = if pg =? m_ptr m / P then Some (entry (w_next w) 0 (prot_bits (op_protect o)) (prot_shares (op_protect o)) true) else w_vm w pg) /\
    o_size (w_obj w' (w_next w)) = P /\ (forall i, o_data (w_obj w' (w_next w)) i = 0).
  Proof.
    intros W (_ & Ol & Oo) Ck Nf H off. pose proof (P_pos t Ht) as HP. pose proof (page_div t Ht (op_offset o)) as [D1 D2].
    pose proof (P_word t Ht) as PW. pose proof (P_pow2 t Ht) as PP. pose proof (bits_pos0 t Ht) as BP. fold off in D1, D2.
    unfold alloc in H. unfold sbind at 1, sout at 1 in H. unfold size_page in H.
    rewrite (size_offset_eq t BP P PP PW) in H by exact Oo. fold off in H.
    unfold alloc_fits in Nf. fold off in Nf.
    assert (Tail : forall n, 0 <= n < 2 ^ t_bits t -> forall K,
      sbind (sout (uadd t off n)) (fun total => anon_tail off n total (op_protect o)) w = K ->
      anon_tail off n (if off + n <? 2 ^ t_bits t then off + n else off + n - 2 ^ t_bits t) (op_protect o) w = K).
    { intros n Hn K <-. unfold uadd. destruct (Z.ltb_spec (off + n) (2 ^ t_bits t)).
      - rewrite wrap_in by lia. reflexivity.
      - rewrite wrap_out by lia. rewrite Ck, mod_once by lia. reflexivity. }
    assert (Rnd : forall l, 0 <= l < 2 ^ t_bits t -> ~ off + l + P < 2 ^ t_bits t ->
        sbind (sout (let* a := uadd t off l in let* r := size_round t (size_alloc t) a in usub t r off))
          (fun n => sbind (sout (uadd t off n)) (fun total => anon_tail off n total (op_protect o))) w = (Ret m, w') ->
        2 ^ t_bits t < off + l /\ anon_tail off (P - off) P (op_protect o) w = (Ret m, w')).
    { intros l Hl Nl K. unfold size_alloc in K. rewrite (alloc_page t Ht) in K. unfold sbind at 1, sout at 1 in K. unfold uadd at 1 in K.
      destruct (Z_lt_le_dec (off + l) (2 ^ t_bits t)) as [Lt|Ge].
      - exfalso. rewrite wrap_in in K by lia. cbn [obind] in K. destruct (Z.eq_dec (off + l + P) (2 ^ t_bits t)) as [Ee|Ne].
        + rewrite (size_round_edge t BP P PP PW) in K by exact Ee. rewrite Ck in K. cbn [obind] in K. unfold usub in K. rewrite wrap_in in K by lia.
          apply Tail in K; [|lia]. revert K. destruct (Z.ltb_spec (off + (off + l - off)) (2 ^ t_bits t)); [|lia].
          apply anon_none; [exact W|right; lia].
        + rewrite (size_round_over t BP P PP PW) in K by (unfold is_usize; lia). rewrite Ck in K. cbn [obind] in K. unfold usub in K.
          destruct (Z.eq_dec off 0) as [O0|O0].
          * rewrite wrap_in in K by lia. apply Tail in K; [|lia]. revert K. destruct (Z.ltb_spec (off + (0 - off)) (2 ^ t_bits t)); [|lia]. apply anon_none; [exact W|left; lia].
          * rewrite wrap_out in K by lia. rewrite Ck in K.
            replace ((0 - off) mod 2 ^ t_bits t) with (2 ^ t_bits t - off) in K by (apply (Z.mod_unique _ _ (-1)); lia).
            apply Tail in K; [|lia]. revert K. destruct (Z.ltb_spec (off + (2 ^ t_bits t - off)) (2 ^ t_bits t)); [lia|]. apply anon_none; [exact W|left; lia].
      - rewrite wrap_out in K by lia. rewrite Ck, mod_once in K by lia. cbn [obind] in K.
        destruct (Z_lt_le_dec (off + l - 2 ^ t_bits t + P) (2 ^ t_bits t)) as [Fi|Bad].
        + rewrite (size_round_in t BP P PP PW) in K by lia. cbn [obind] in K. unfold usub in K.
          destruct (Z.eq_dec (off + l) (2 ^ t_bits t)) as [Ee|Ne].
          * exfalso. rewrite (Z.div_small (off + l - 2 ^ t_bits t + P - 1)) in K by lia. rewrite Z.mul_0_r in K.
            assert (O1 : 0 < off) by lia. rewrite wrap_out in K by lia. rewrite Ck in K.
            replace ((0 - off) mod 2 ^ t_bits t) with (2 ^ t_bits t - off) in K by (apply (Z.mod_unique _ _ (-1)); lia).
            apply Tail in K; [|lia]. revert K. destruct (Z.ltb_spec (off + (2 ^ t_bits t - off)) (2 ^ t_bits t)); [lia|]. apply anon_none; [exact W|left; lia].
          * split; [lia|]. replace ((off + l - 2 ^ t_bits t + P - 1) / P) with 1 in K by (apply (Z.div_unique _ _ _ (off + l - 2 ^ t_bits t - 1)); lia).
            rewrite Z.mul_1_r, wrap_in in K by lia. apply Tail in K; [|lia]. revert K.
            destruct (Z.ltb_spec (off + (P - off)) (2 ^ t_bits t)); [|lia]. replace (off + (P - off)) with P by lia. auto.
        + exfalso. assert (P * 2 <= 2 ^ t_bits t).
          { destruct (unit_divides_word t BP P PP PW) as [q Hq]. rewrite Hq in PW |- *. assert (1 < q) by (clear - PW HP; nia). clear - H0 HP. nia. }
          lia. }
    assert (Ex : forall l, 0 <= l < 2 ^ t_bits t -> ~ off + l < 2 ^ t_bits t ->
        sbind (sret l) (fun n => sbind (sout (uadd t off n)) (fun total => anon_tail off n total (op_protect o))) w = (Ret m, w') ->
        2 ^ t_bits t < off + l /\ anon_tail off l (off + l - 2 ^ t_bits t) (op_protect o) w = (Ret m, w')).
    { intros l Hl Nl K. change (sbind (sout (uadd t off l)) (fun total => anon_tail off l total (op_protect o)) w = (Ret m, w')) in K.
      apply Tail in K; [|lia]. destruct (Z.ltb_spec (off + l) (2 ^ t_bits t)); [lia|].
      destruct (Z.eq_dec (off + l) (2 ^ t_bits t)) as [Ee|Ne]; [|split; [lia|exact K]].
      exfalso. revert K. apply anon_none; [exact W|left; lia]. }
    change ((do* len <- match op_len o with
               | ExtEnd => sout (let* a := uadd t off 1 in let* r := size_round t (size_alloc t) a in usub t r off)
               | ExtMin l => sout (let* a := uadd t off l in let* r := size_round t (size_alloc t) a in usub t r off)
               | ExtMax l => sret l
               | ExtExact l => sret l
               end; do* total <- sout (uadd t off len); anon_tail off len total (op_protect o)) w = (Ret m, w')) in H.
    unfold extent_ok, is_usize in Ol. destruct (op_len o) as [|l|l|l].
    - exfalso. assert (H1 : 0 <= 1 < 2 ^ t_bits t) by lia. destruct (Rnd 1 H1 Nf H) as [X _]. lia.
    - destruct (Ex l Ol Nf H) as [X K]. assert (0 < off + l - 2 ^ t_bits t <= P) as T by lia. destruct (anon_one _ _ _ _ _ _ _ W D2 T K) as (-> & R). auto.
    - destruct (Rnd l Ol Nf H) as [X K]. assert (0 < P <= P) as T by lia. destruct (anon_one _ _ _ _ _ _ _ W D2 T K) as (-> & R). auto.
    - destruct (Ex l Ol Nf H) as [X K]. assert (0 < off + l - 2 ^ t_bits t <= P) as T by lia. destruct (anon_one _ _ _ _ _ _ _ W D2 T K) as (-> & R). auto.
  Qed.
End Exact.

(** ** The scalar accessors, for every offset, in every build *)
Section Accessors.
  Variable t : target.
  Hypothesis Ht : good_target t.
  Variable B : abi.

  (** What decides: the value lies inside; the check's sum wraps round and
      passes; the address is not a multiple of the type's alignment. *)
  Definition inside (n off : Z) (ty : scalar) : Prop := off + size_of t ty <= n.
  Definition slips (n off : Z) (ty : scalar) : Prop :=
    t_checks t = false /\ 2 ^ t_bits t <= off + size_of t ty <= 2 ^ t_bits t + n.
  Definition misplaced (p off : Z) (ty : scalar) (x : access) : Prop :=
    is_volatile x = true /\ ((p + off) mod 2 ^ t_bits t) mod align_of B ty <> 0.

  Lemma slice_exact p n ty off x s : span_ok t {| m_ptr := p; m_len := n |} -> n < 2 ^ (t_bits t - 1) -> is_usize t off ->
    let r := fst (perform t B (slice_mem p n) {| m_ptr := p; m_len := n |} ty off x s) in
    (r = Ret tt <-> inside n off ty /\ ~ misplaced p off ty x) /\
    (r = Fault <-> slips n off ty /\ ~ misplaced p off ty x) /\
    (r = Panic <-> (~ inside n off ty /\ ~ slips n off ty) \/ misplaced p off ty x).
  Proof.
    intros Sp N O r. pose proof Sp as (S1 & S2 & S3). cbn in S1, S2, S3. pose proof (size_of_pos t Ht ty) as Sz.
    assert (W : 2 ^ t_bits t = 2 * 2 ^ (t_bits t - 1) /\ 16 < 2 ^ (t_bits t - 1)).
    { destruct Ht as ([->| ->] & _); split; reflexivity. }
    assert (Un : is_usize t n) by (unfold is_usize; lia). destruct O as [O1 O2].
    assert (Dm : misplaced p off ty x \/ ~ misplaced p off ty x).
    { unfold misplaced. destruct (is_volatile x); [|right; intros [X _]; discriminate X].
      destruct (Z.eq_dec (((p + off) mod 2 ^ t_bits t) mod align_of B ty) 0); [right; intros [_ X]; contradiction|left; auto]. }
    assert (G : (inside n off ty /\ ~ slips n off ty /\ r = (if is_volatile x && negb (((p + off) mod 2 ^ t_bits t) mod align_of B ty =? 0) then Panic else Ret tt)) \/
      (~ inside n off ty /\ ~ slips n off ty /\ r = Panic) \/
      (~ inside n off ty /\ slips n off ty /\ r = (if is_volatile x && negb (((p + off) mod 2 ^ t_bits t) mod align_of B ty =? 0) then Panic else Fault))).
    { unfold inside, slips. destruct (Z_le_gt_dec (off + size_of t ty) n) as [Le|Gt].
      - left. split; [exact Le|]. split; [lia|].
        destruct (slice_access t Ht B p n ty off x s Sp) as (s' & E); try assumption; try (unfold is_usize; lia).
        unfold r. rewrite E. cbn [fst]. rewrite (proj2 (Z.leb_le _ _) Le). rewrite (Z.mod_small (p + off) (2 ^ t_bits t)) by lia.
        destruct (is_volatile x), (_ =? 0); reflexivity.
      - destruct (Z_lt_le_dec (off + size_of t ty) (2 ^ t_bits t)) as [Lt|Ge].
        { right. left. split; [lia|]. split; [lia|]. unfold r. rewrite (outside t Ht B); cbn [m_len]; try (unfold is_usize; lia). reflexivity. }
        destruct (t_checks t) eqn:Ck.
        { right. left. split; [lia|]. split; [intros [X _]; discriminate X|]. unfold r. rewrite (outside t Ht B); cbn [m_len]; try (unfold is_usize; lia); auto. }
        destruct (Z_le_gt_dec (off + size_of t ty) (2 ^ t_bits t + n)) as [Le2|Gt2].
        + right. right. split; [lia|]. split; [auto|].
          assert (C : assert_capacity t ty off n = Ret tt).
          { rewrite (capacity_spec t Ht) by (unfold is_usize; lia). rewrite Ck. destruct (Z.ltb_spec (off + size_of t ty) (2 ^ t_bits t)); [lia|].
            destruct (Z.ltb_spec n (off + size_of t ty - 2 ^ t_bits t)); [lia|reflexivity]. }
          assert (A : assert_alignment t B ty off p = if ((p + off) mod 2 ^ t_bits t) mod align_of B ty =? 0 then Ret tt else Panic).
          { unfold assert_alignment, ptr_add, as_usize. destruct (_ =? 0); reflexivity. }
          destruct (slice_hole t Ht B p n ty off (match x with WriteVolatile v | WriteUnaligned v => v | _ => 0 end) s Sp) as [H1 H2];
            try assumption; try (unfold is_usize; lia).
          unfold read_unaligned in H1. unfold write_unaligned in H2. cbn [m_len m_ptr] in H1, H2. rewrite C in H1, H2. cbn [obind SpanModel.after] in H1, H2.
          unfold r. destruct x as [| |v|v]; cbn [perform is_volatile andb];
            unfold read_volatile, read_unaligned, write_volatile, write_unaligned; cbn [m_len m_ptr]; rewrite C; cbn [obind SpanModel.after].
          * rewrite A. destruct (_ =? 0); cbn [negb obind]; [|reflexivity]. rewrite H1. reflexivity.
          * rewrite H1. reflexivity.
          * rewrite A. destruct (_ =? 0); cbn [negb obind SpanModel.after]; [|reflexivity]. rewrite H2. reflexivity.
          * rewrite H2. reflexivity.
        + right. left. split; [lia|]. split; [lia|].
          assert (C : assert_capacity t ty off n = Panic).
          { rewrite (capacity_spec t Ht) by (unfold is_usize; lia). rewrite Ck. destruct (Z.ltb_spec (off + size_of t ty) (2 ^ t_bits t)); [lia|].
            destruct (Z.ltb_spec n (off + size_of t ty - 2 ^ t_bits t)); [reflexivity|lia]. }
          unfold r. destruct x as [| |v|v]; cbn [perform]; unfold read_volatile, read_unaligned, write_volatile, write_unaligned; cbn [m_len m_ptr]; rewrite C; reflexivity. }
    assert (Mz : misplaced p off ty x <-> is_volatile x && negb (((p + off) mod 2 ^ t_bits t) mod align_of B ty =? 0) = true).
    { unfold misplaced. rewrite andb_true_iff, negb_true_iff, Z.eqb_neq. reflexivity. }
    destruct G as [(I & Sl & E)|[(I & Sl & E)|(I & Sl & E)]]; rewrite E; clear E;
      destruct (is_volatile x && negb (((p + off) mod 2 ^ t_bits t) mod align_of B ty =? 0)); split; [|split| |split| |split| |split| |split| |split];
      split; intros X; try discriminate X; try reflexivity; try tauto; intuition congruence.
  Qed.
End Accessors.

Section MapReads.
  Variable t : target.
  Hypothesis Ht : posix_target t.
  Variable B : abi.
  Notation P := (t_page t).

  (** Reading a value that lies inside a map, in any state: it is there unless
      the page of its last byte begins behind the end of the file. *)
  Lemma load_run w m o off shared maxw : backed t w m o off shared maxw -> forall n i, 0 <= i -> i + Z.of_nat n <= m_len m -> (0 < n)%nat ->
    exists l, load_bytes t (kernel_mem t) n (m_ptr m + i) w =
      if o_size (w_obj w o) <=? P * ((off + i + Z.of_nat n - 1) / P) then Fault else Ret l.
  Proof.
    intros Bk. pose proof (P_pos t Ht) as HP. pose proof (map_end t Ht m) as ME. pose proof (bk_hi _ _ _ _ _ _ _ Bk) as Hi. pose proof (bk_lo _ _ _ _ _ _ _ Bk) as Lo.
    assert (One : forall i, 0 <= i < m_len m -> exists b, mem_load (kernel_mem t) w (m_ptr m + i) =
      if o_size (w_obj w o) <=? P * ((off + i) / P) then Fault else Ret b).
    { intros i Hr. destruct (byte_page t Ht _ _ _ _ _ _ Bk i Hr) as (Ep & Ow & I1 & I2).
      destruct (bk_pages _ _ _ _ _ _ _ Bk _ Ow) as (e & Ev & Eo & Ei & Es & Em & Er & Ec).
      cbn [kernel_mem mem_load]. unfold OsModel.load. rewrite Ev, Er, Eo, Ei, I1. cbn [negb]. destruct (_ <=? _); eauto. }
    induction n as [|n IH]; intros i H0 H1 Hn; [lia|]. cbn [load_bytes].
    destruct (One i ltac:(lia)) as (b & ->).
    assert (Mono : (off + i) / P <= (off + i + Z.of_nat (S n) - 1) / P) by (apply Z.div_le_mono; lia).
    destruct (Z.leb_spec (o_size (w_obj w o)) (P * ((off + i) / P))) as [Le|Gt].
    { exists []. cbn [obind]. destruct (Z.leb_spec (o_size (w_obj w o)) (P * ((off + i + Z.of_nat (S n) - 1) / P))); [reflexivity|nia]. }
    cbn [obind]. destruct n as [|n].
    { cbn [load_bytes obind]. exists [b]. replace (off + i + Z.of_nat 1 - 1) with (off + i) by lia. destruct (Z.leb_spec (o_size (w_obj w o)) (P * ((off + i) / P))); [lia|reflexivity]. }
    assert (Ea : ptr_add t (m_ptr m + i) 1 = m_ptr m + (i + 1)) by (unfold ptr_add, as_usize; rewrite Z.mod_small; lia).
    rewrite Ea. destruct (IH (i + 1) ltac:(lia) ltac:(lia) ltac:(lia)) as (l & ->).
    replace (off + (i + 1) + Z.of_nat (S n) - 1) with (off + i + Z.of_nat (S (S n)) - 1) by lia.
    exists (b :: l). destruct (_ <=? _); reflexivity.
  Qed.

  Lemma map_read_exact a k l ty off x : api_ok t a -> a_live a k = Some l -> 0 <= off -> off + size_of t ty <= m_len (l_map l) ->
    match x with WriteVolatile _ | WriteUnaligned _ => False | _ => True end ->
    fst (perform t B (kernel_mem t) (l_map l) ty off x (a_w a)) =
      if is_volatile x && negb ((m_ptr (l_map l) + off) mod align_of B ty =? 0) then Panic
      else if o_size (w_obj (a_w a) (l_obj l)) <=? P * ((l_off l + off + size_of t ty - 1) / P) then Fault else Ret tt.
  Proof.
    intros OK Hl O0 Le Rd. pose proof (ok_live _ _ OK k l Hl) as Bk. pose proof (backed_span t Ht _ _ _ _ _ _ Bk) as Sp.
    pose proof (size_of_pos t (proj1 Ht) ty) as Sz.
    destruct (load_run _ _ _ _ _ _ Bk (Z.to_nat (size_of t ty)) off O0) as (bs & E); [lia|lia|].
    rewrite Z2Nat.id in E by lia.
    assert (Ep : ptr_add t (m_ptr (l_map l)) off = m_ptr (l_map l) + off).
    { destruct Sp as (S1 & S2 & S3). unfold ptr_add, as_usize. apply Z.mod_small. lia. }
    destruct x as [| |v|v]; try contradiction; cbn [perform is_volatile andb]; unfold read_volatile, read_unaligned;
      rewrite (inside_capacity t (proj1 Ht) _ Sp ty off O0 Le); cbn [obind].
    - rewrite (alignment_spec t (proj1 Ht) B _ Sp ty off O0 Le). destruct (_ =? 0); cbn [negb obind]; [|reflexivity].
      rewrite Ep, E. destruct (_ <=? _); reflexivity.
    - rewrite Ep, E. destruct (_ <=? _); reflexivity.
  Qed.
End MapReads.
