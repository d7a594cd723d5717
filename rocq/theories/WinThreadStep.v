(** Calls in progress on Windows: every event keeps the invariant. *)
From Coq Require Import Lia.
From Verif Require Import Base Spec ErrorModel SizeModel OsModel MapModel MapSpec RingMapModel RingMapSpec SizeProofs OsProofs
  MapProofs MapCreate MapOps MirrorProofs RingMapClaims MemRingModel ProcModel ProcFrame ProcProofs ProcPages
  WinModel WinSpec WinProofs WinClaims WinCalls WinMapModel WinMapSpec WinSpace WinKeep WinMapProofs WinAlloc WinThings WinHist WinLeak WinMapClaims
  WinProcModel WinProcSpec WinProcProofs WinLedgerSpec WinLedger WinThreadModel WinThreadSpec WinThreadInv WinThreadAdv.

(** Calls that make nothing. *)
Definition calm_act (a : act) : bool := match a with AOpen _ _ _ | AMap _ _ _ | AAlloc _ _ | WinMapModel.ARing _ => false | _ => true end.
Definition tab_key (a : act) : option Z := match a with AToMut k | AToMap k | ADrop k => Some k | _ => None end.

Section Step.
  Variable t : target.
  Hypothesis Ht : good_target t.
  Notation P := (t_page t).
  Notation G := (t_alloc t).
  Let HP : 0 < P.
  Proof. exact (pow2_pos _ (proj1 (proj2 Ht))). Qed.
  Let HG : 0 < G.
  Proof. exact (pow2_pos _ (proj1 (proj2 (proj2 Ht)))). Qed.
  Notation moved := (moved t).
  Notation item_ok := (item_ok t).
  Notation stage_ok := (stage_ok t).
  Notation gok := (gok t).
  Notation wtok := (wtok t).
  Notation fam := (fam t).

  Definition ohandle (o : option wpend) : option Z := match o with Some pd => wpd_handle pd | None => None end.
  Definition oresv (o : option wpend) : option Z := match o with Some pd => wpd_resv pd | None => None end.

  Lemma fam_thread g pool tid pd : pool tid = Some pd -> fam g pool (WThread tid) = wpiece t pd.
  Proof. intros H. unfold WinThreadInv.fam, pitem. rewrite H. reflexivity. Qed.
  Lemma gok_item s0 g pool tid pd : gok s0 g pool -> pool tid = Some pd -> item_ok (g_s g) (wpiece t pd).
  Proof.
    intros K H it Hi. pose proof (gk_fam _ _ _ _ K) as [W So Th Ap Ob Ow]. rewrite <- (fam_thread g pool tid pd H) in Hi. split.
    - intros x Hx. exact (Th _ _ _ Hi Hx).
    - split; [exact (Ob _ _ Hi)|]. intros Hp. exact (proj1 (Ow _ _ Hi Hp)).
  Qed.

  (** A step of thread [tid]: everything but the family of items. *)
  Lemma moved_rest s0 g pool tid pd s' new g' pd' : gok s0 g pool -> pool tid = Some pd ->
    moved s0 (g_s g) s' (wpiece t pd) new (wpd_handle pd) (ohandle pd') (wpd_resv pd) (oresv pd') ->
    (forall pe, pd' = Some pe -> stage_ok s0 s' pe) -> g_s g' = s' -> fam_ok t s' (fam g' (put pool tid pd')) ->
    (forall k x, g_tab g' k = Some x -> k < g_cnt g') -> gok s0 g' (put pool tid pd').
  Proof.
    intros K Hp M St Eg F Ks. pose proof K as [Fm _ Td Sg Hd Nw Sc Rv]. pose proof Fm as [W So Th Ap Ob Ow]. pose proof M as [(X & Ev & HX) Mi Ms Mk Mr Mt].
    assert (Oh : forall i pe h, i <> tid -> pool i = Some pe -> wpd_handle pe = Some h -> n_sec s' h = n_sec (g_s g) h).
    { intros i pe h Ni Hi Hh. destruct Ms as [[-> _]|[(h1 & c & _ & _ & E1 & ->)|(h1 & E1 & _ & ->)]]; auto; apply put_other; intros ->.
      - exact (handle_sec t _ _ _ _ (Sg _ _ Hi) Hh E1).
      - exact (Hd _ _ _ _ _ (not_eq_sym Ni) Hp Hi E1 Hh). }
    assert (PC : forall i pe, put pool tid pd' i = Some pe -> (i = tid /\ pd' = Some pe) \/ (i <> tid /\ pool i = Some pe)).
    { intros i pe. unfold put. destruct (Z.eqb_spec i tid); auto. }
    assert (HN : forall h, ohandle pd' = Some h -> (forall i pe, i <> tid -> pool i = Some pe -> wpd_handle pe <> Some h) /\ n_sec s0 h = None).
    { intros h Hh. destruct Ms as [[_ E]|[(h1 & c & _ & E2 & E1 & _)|(h1 & _ & E & _)]].
      - rewrite <- E in Hh. split; [|exact (Nw _ _ _ Hp Hh)]. intros i pe Ni Hi. exact (Hd _ _ _ _ _ (not_eq_sym Ni) Hp Hi Hh).
      - assert (h1 = h) by congruence. subst h1. assert (Nn : forall i pe, pool i = Some pe -> wpd_handle pe <> Some h).
        { intros i pe Hi Hj. exact (handle_sec t _ _ _ _ (Sg _ _ Hi) Hj E1). }
        split; [intros i pe _; apply Nn|]. destruct (Sc h) as [(i & pe & Hi & Hj)|E]; [destruct (Nn i pe Hi Hj)|congruence].
      - congruence. }
    assert (RN : forall a, oresv pd' = Some a -> forall i pe, i <> tid -> pool i = Some pe -> wpd_resv pe <> Some a).
    { intros a Ha i pe Ni Hi Hr. destruct (Mr a Ha) as [E|E]; [|exact (Rv _ _ _ _ _ (not_eq_sym Ni) Hp Hi E Hr)].
      destruct (resv_left t _ _ _ _ (Sg _ _ Hi) Hr) as (n & _ & E'). congruence. }
    split; rewrite ?Eg; auto.
    - intros i pe Hi. destruct (PC _ _ Hi) as [[-> E]|[Ni Hj]]; [exact (St _ E)|].
      apply (stage_keeps t s0 (g_s g)); [exact (Sg _ _ Hj)|..].
      + intros h Hh. exact (Oh i pe h Ni Hj Hh).
      + intros it Hit Hpr. rewrite <- (fam_thread g pool i pe Hj) in Hit. destruct (Ow _ _ Hit Hpr) as [N1 _]. pose proof (Ob _ _ Hit) as Lo.
        split; [exact (ev_size _ _ _ _ _ _ Ev _ Lo N1)|]. destruct (ev_obj _ _ _ _ _ _ Ev _ Lo N1) as [[]|H]. exact H.
      + intros it x b n Hit Hx Bb Hv. destruct (ev_view _ _ _ _ _ _ Ev _ _ Hv) as [Xb|H]; [exfalso|exact H].
        destruct (HX b Xb) as (jt & y & Hjt & Hy & By). rewrite <- (fam_thread g pool i pe Hj) in Hit. rewrite <- (fam_thread g pool tid pd Hp) in Hjt.
        assert (Nz : WThread i <> WThread tid) by congruence. exact (Ap _ _ _ _ _ _ b Nz Hit Hjt Hx Hy Bb By).
      + intros a n Ha Hn. destruct (Mk a n Hn) as [E|H]; [|exact H]. destruct (Rv _ _ _ _ _ Ni Hj Hp Ha E).
    - intros i j pe pf h Nij Hi Hj Hh Hh'. destruct (PC _ _ Hi) as [[-> E]|[Ni Hi']], (PC _ _ Hj) as [[-> E']|[Nj Hj']].
      + congruence.
      + apply (proj1 (HN h ltac:(rewrite E; exact Hh)) j pf Nj Hj' Hh').
      + apply (proj1 (HN h ltac:(rewrite E'; exact Hh')) i pe Ni Hi' Hh).
      + exact (Hd _ _ _ _ _ Nij Hi' Hj' Hh Hh').
    - intros i pe h Hi Hh. destruct (PC _ _ Hi) as [[-> E]|[Ni Hi']]; [apply HN; rewrite E; exact Hh|exact (Nw _ _ _ Hi' Hh)].
    - intros h. destruct (Sc h) as [(i & pe & Hi & Hh)|E].
      + destruct (Z.eq_dec i tid) as [->|Ni].
        * assert (pe = pd) by congruence. subst pe. destruct Ms as [[E1 E2]|[(h1 & c & E1 & _)|(h1 & E1 & E2 & E3)]]; [| congruence|].
          -- left. rewrite Hh in E2. destruct pd' as [pe|]; [|discriminate E2]. exists tid, pe. split; [apply put_same|symmetry; exact E2].
          -- right. assert (h1 = h) by congruence. subst h1. rewrite E3, put_same. symmetry. exact (Nw _ _ _ Hp Hh).
        * left. exists i, pe. split; [rewrite put_other by exact Ni; exact Hi|exact Hh].
      + destruct Ms as [[E1 _]|[(h1 & c & _ & E2 & E1 & E3)|(h1 & E1 & E2 & E3)]].
        * right. rewrite E1. exact E.
        * destruct (Z.eq_dec h h1) as [->|Nh]; [left|right; rewrite E3, put_other by exact Nh; exact E].
          destruct pd' as [pe|]; [|discriminate E2]. exists tid, pe. split; [apply put_same|exact E2].
        * right. rewrite E3. destruct (Z.eq_dec h h1) as [->|Nh]; [rewrite put_same; symmetry; exact (Nw _ _ _ Hp E1)|rewrite put_other by exact Nh; exact E].
    - intros i j pe pf a Nij Hi Hj Hh Hh'. destruct (PC _ _ Hi) as [[-> E]|[Ni Hi']], (PC _ _ Hj) as [[-> E']|[Nj Hj']].
      + congruence.
      + apply (RN a ltac:(rewrite E; exact Hh) j pf Nj Hj' Hh').
      + apply (RN a ltac:(rewrite E'; exact Hh') i pe Ni Hi' Hh).
      + exact (Rv _ _ _ _ _ Nij Hi' Hj' Hh Hh').
  Qed.

  (** The family after a step of [tid] that leaves it [new]. *)
  Lemma moved_fam s0 g pool tid pd s' new h h' r r' F' : gok s0 g pool -> pool tid = Some pd -> moved s0 (g_s g) s' (wpiece t pd) new h h' r r' ->
    (forall z, z <> WThread tid -> F' z = fam g pool z) -> F' (WThread tid) = new -> fam_ok t s' F'.
  Proof.
    intros K Hp [(X & Ev & HX) Mi _ _ _ _] Ho En. apply (fam_move t Ht X none none (g_s g) s' (fam g pool) F' (WThread tid)); auto.
    - exact (gk_fam _ _ _ _ K).
    - intros b Xb. rewrite (fam_thread _ _ _ _ Hp). exact (HX b Xb).
    - rewrite (fam_thread _ _ _ _ Hp), En. exact Mi.
  Qed.

  Lemma fam_set g s' pool tid pd z : z <> WThread tid -> fam (g_set g s') (put pool tid pd) z = fam g pool z.
  Proof. destruct z as [k|i]; intros N; cbn; [reflexivity|]. rewrite put_other by congruence. reflexivity. Qed.

  (** More to do, or over. *)
  Lemma gok_more s0 g pool tid pd s' pd' : gok s0 g pool -> pool tid = Some pd ->
    moved s0 (g_s g) s' (wpiece t pd) (pitem t pd') (wpd_handle pd) (ohandle pd') (wpd_resv pd) (oresv pd') ->
    (forall pe, pd' = Some pe -> stage_ok s0 s' pe) -> gok s0 (g_set g s') (put pool tid pd').
  Proof.
    intros K Hp M St. apply (moved_rest s0 g pool tid pd s' (pitem t pd') (g_set g s') pd' K Hp M St eq_refl).
    - apply (moved_fam s0 g pool tid pd s' (pitem t pd') _ _ _ _ _ K Hp M).
      + intros z Nz. apply fam_set, Nz.
      + cbn. rewrite put_same. reflexivity.
    - cbn. exact (gk_keys _ _ _ _ K).
  Qed.
  (** The thing made is handed over. *)
  Lemma gok_made s0 g pool tid pd s' x : gok s0 g pool -> pool tid = Some pd ->
    moved s0 (g_s g) s' (wpiece t pd) (Some (tab_item x)) (wpd_handle pd) None (wpd_resv pd) None ->
    gok s0 (g_add g s' x) (put pool tid None).
  Proof.
    intros K Hp M. pose proof (gk_keys _ _ _ _ K) as Ks.
    apply (moved_rest s0 g pool tid pd s' (Some (tab_item x)) (g_add g s' x) None K Hp M); [discriminate|reflexivity| |].
    - set (F1 := fun z => if owner_dec z (WThread tid) then Some (tab_item x) else fam g pool z).
      assert (K1 : fam_ok t s' F1).
      { apply (moved_fam s0 g pool tid pd s' (Some (tab_item x)) _ _ _ _ F1 K Hp M); unfold F1.
        - intros z Nz. destruct (owner_dec z (WThread tid)); [contradiction|reflexivity].
        - destruct (owner_dec (WThread tid) (WThread tid)); [reflexivity|congruence]. }
      apply (fam_swap t s' F1 _ (fun z => if owner_dec z (WThing (g_cnt g)) then WThread tid else z) K1).
      + intros z it Hz. unfold F1. destruct (owner_dec z (WThing (g_cnt g))) as [->|N1].
        * destruct (owner_dec (WThread tid) (WThread tid)); [|congruence]. cbn in Hz. rewrite put_same in Hz. exact Hz.
        * destruct (owner_dec z (WThread tid)) as [->|N2]; [cbn in Hz; rewrite put_same in Hz; discriminate Hz|].
          destruct z as [k|i]; cbn in *; rewrite put_other in Hz by congruence; exact Hz.
      + intros z y it jt Hz Hy. destruct (owner_dec z (WThing (g_cnt g))) as [->|N1], (owner_dec y (WThing (g_cnt g))) as [->|N2]; auto.
        * intros <-. cbn in Hy. rewrite put_same in Hy. discriminate Hy.
        * intros ->. cbn in Hz. rewrite put_same in Hz. discriminate Hz.
    - cbn. intros k y Hk. unfold put in Hk. destruct (Z.eqb_spec k (g_cnt g)); [lia|]. pose proof (Ks k y Hk). lia.
  Qed.

  Lemma gok_start s0 g pool tid pd : gok s0 g pool -> pool tid = None -> stage_ok s0 (g_s g) pd -> wpiece t pd = None -> wpd_handle pd = None -> wpd_resv pd = None ->
    gok s0 g (put pool tid (Some pd)).
  Proof.
    intros [Fm Ks Td Sg Hd Nw Sc Rv] Hp St E1 E2 E3.
    assert (PC : forall i pe, put pool tid (Some pd) i = Some pe -> (i = tid /\ pe = pd) \/ (i <> tid /\ pool i = Some pe)).
    { intros i pe. unfold put. destruct (Z.eqb_spec i tid); [intros [= <-]|]; auto. }
    split; auto.
    - apply (fam_swap t (g_s g) (fam g pool) _ (fun z => z) Fm); [|auto]. intros [k|i] it Hz; [exact Hz|]. cbn in *. unfold put in Hz.
      destruct (Z.eqb_spec i tid); [cbn in Hz; congruence|exact Hz].
    - intros i pe Hi. destruct (PC _ _ Hi) as [[-> ->]|[Ni Hj]]; [exact St|exact (Sg _ _ Hj)].
    - intros i j pe pf h Nij Hi Hj Hh. destruct (PC _ _ Hi) as [[-> ->]|[Ni Hi']], (PC _ _ Hj) as [[-> ->]|[Nj Hj']]; try congruence. exact (Hd _ _ _ _ _ Nij Hi' Hj' Hh).
    - intros i pe h Hi Hh. destruct (PC _ _ Hi) as [[-> ->]|[Ni Hi']]; [congruence|exact (Nw _ _ _ Hi' Hh)].
    - intros h. destruct (Sc h) as [(i & pe & Hi & Hh)|E]; [left|right; exact E]. exists i, pe. split; [|exact Hh]. rewrite put_other; congruence.
    - intros i j pe pf a Nij Hi Hj Hh. destruct (PC _ _ Hi) as [[-> ->]|[Ni Hi']], (PC _ _ Hj) as [[-> ->]|[Nj Hj']]; try congruence. exact (Rv _ _ _ _ _ Nij Hi' Hj' Hh).
  Qed.
  (** A ring about to be dropped: the thread has it now. *)
  Lemma gok_drop s0 g pool tid k r ob : gok s0 g pool -> pool tid = None -> g_tab g k = Some (TRing r ob) ->
    gok s0 (g_put g (g_s g) k None) (put pool tid (Some (DSecond r ob))).
  Proof.
    intros [Fm Ks Td Sg Hd Nw Sc Rv] Hp Hk.
    assert (PC : forall i pe, put pool tid (Some (DSecond r ob)) i = Some pe -> (i = tid /\ pe = DSecond r ob) \/ (i <> tid /\ pool i = Some pe)).
    { intros i pe. unfold put. destruct (Z.eqb_spec i tid); [intros [= <-]|]; auto. }
    split; auto.
    - apply (fam_swap t (g_s g) (fam g pool) _ (fun z => if owner_dec z (WThread tid) then WThing k else z) Fm).
      + intros z it Hz. destruct (owner_dec z (WThread tid)) as [->|N].
        * cbn in *. rewrite put_same in Hz. cbn in Hz. rewrite Hk. exact Hz.
        * destruct z as [j|i]; cbn in *; [|rewrite put_other in Hz by congruence; exact Hz]. unfold put in Hz. destruct (Z.eqb_spec j k); [discriminate Hz|exact Hz].
      + intros z y it jt Hz Hy. destruct (owner_dec z (WThread tid)) as [->|N1], (owner_dec y (WThread tid)) as [->|N2]; auto.
        * intros <-. cbn in Hy. rewrite put_same in Hy. discriminate Hy.
        * intros ->. cbn in Hz. rewrite put_same in Hz. discriminate Hz.
    - cbn. intros j y Hj. unfold put in Hj. destruct (Z.eqb_spec j k); [discriminate Hj|exact (Ks j y Hj)].
    - intros i pe Hi. destruct (PC _ _ Hi) as [[-> ->]|[Ni Hj]]; [exact Logic.I|exact (Sg _ _ Hj)].
    - intros i j pe pf h Nij Hi Hj Hh. destruct (PC _ _ Hi) as [[-> ->]|[Ni Hi']], (PC _ _ Hj) as [[-> ->]|[Nj Hj']]; try discriminate. exact (Hd _ _ _ _ _ Nij Hi' Hj' Hh).
    - intros i pe h Hi Hh. destruct (PC _ _ Hi) as [[-> ->]|[Ni Hi']]; [discriminate Hh|exact (Nw _ _ _ Hi' Hh)].
    - intros h. destruct (Sc h) as [(i & pe & Hi & Hh)|E]; [left|right; exact E]. exists i, pe. split; [|exact Hh]. rewrite put_other; congruence.
    - intros i j pe pf a Nij Hi Hj Hh. destruct (PC _ _ Hi) as [[-> ->]|[Ni Hi']], (PC _ _ Hj) as [[-> ->]|[Nj Hj']]; try discriminate. exact (Rv _ _ _ _ _ Nij Hi' Hj' Hh).
  Qed.

  (** ** Calls without stages *)
  Lemma act_tab a g : calm_act a = true -> g_cnt (snd (act_step t a g)) = g_cnt g /\
    (forall k, tab_key a <> Some k -> g_tab (snd (act_step t a g)) k = g_tab g k) /\
    forall k x', g_tab (snd (act_step t a g)) k = Some x' -> exists x, g_tab g k = Some x /\ same_thing x x'.
  Proof.
    assert (R : forall g', g_cnt g' = g_cnt g -> (forall k, g_tab g' k = g_tab g k) -> g_cnt g' = g_cnt g /\
      (forall k, tab_key a <> Some k -> g_tab g' k = g_tab g k) /\ forall k x', g_tab g' k = Some x' -> exists x, g_tab g k = Some x /\ same_thing x x').
    { intros g' E1 E2. split; [exact E1|]. split; [auto|]. intros k x' Hk. exists x'. rewrite <- E2. split; [exact Hk|apply same_thing_refl]. }
    assert (Pl : forall x, g_cnt (snd (plain g x)) = g_cnt g /\ forall k, g_tab (snd (plain g x)) k = g_tab g k).
    { intros [[u|e| | |] s']; cbn; auto. }
    assert (Rd : forall x, g_cnt (snd (reads g x)) = g_cnt g /\ forall k, g_tab (snd (reads g x)) k = g_tab g k).
    { intros [[u|e| | |] s']; cbn; auto. }
    assert (Wm : forall k f, (forall v, g_cnt (snd (f v)) = g_cnt g /\ forall j, g_tab (snd (f v)) j = g_tab g j) ->
      g_cnt (snd (with_map g k f)) = g_cnt g /\ forall j, g_tab (snd (with_map g k f)) j = g_tab g j).
    { intros k f H. unfold with_map. destruct (g_tab g k) as [[v|r o]|]; cbn; auto. }
    assert (Wu : forall k f, (forall v, g_cnt (snd (f v)) = g_cnt g /\ forall j, g_tab (snd (f v)) j = g_tab g j) ->
      g_cnt (snd (with_mut g k f)) = g_cnt g /\ forall j, g_tab (snd (with_mut g k f)) j = g_tab g j).
    { intros k f H. apply Wm. intros v. destruct (v_mut v); cbn; auto. }
    assert (Cv : forall k v mut s', g_tab g k = Some (TMap v) -> tab_key a = Some k -> g_cnt (g_put g s' k (Some (converted v mut))) = g_cnt g /\
      (forall j, tab_key a <> Some j -> g_tab (g_put g s' k (Some (converted v mut))) j = g_tab g j) /\
      forall j x', g_tab (g_put g s' k (Some (converted v mut))) j = Some x' -> exists x, g_tab g j = Some x /\ same_thing x x').
    { intros k v mut s' Hk Ek. cbn. split; [reflexivity|]. split.
      - intros j Nj. apply put_other. congruence.
      - intros j x' Hj. unfold put in Hj. destruct (Z.eqb_spec j k) as [->|Nj]; [injection Hj as <-; exists (TMap v); cbn; auto 7|].
        exists x'. split; [exact Hj|apply same_thing_refl]. }
    intros Hc. destruct a; try discriminate Hc; cbn [act_step tab_key] in *; try (apply R; apply Wm; intros v; apply Pl); try (apply R; apply Wu; intros v; apply Pl).
    - apply R; cbn; auto.
    - unfold with_map. destruct (g_tab g k) as [[v|r o]|] eqn:Hk; try (apply R; cbn; auto; fail). destruct (v_mut v); [apply R; cbn; auto|].
      destruct (winto_map_mut t (v_map v) (g_s g)) as [[u|e| | |] s']; cbn [WinMapModel.finish snd]; try (apply R; cbn; auto; fail). apply (Cv k v true s'); auto.
    - unfold with_mut, with_map. destruct (g_tab g k) as [[v|r o]|] eqn:Hk; try (apply R; cbn; auto; fail). destruct (v_mut v); [|apply R; cbn; auto].
      destruct (winto_map t (v_map v) (g_s g)) as [[u|e| | |] s']; cbn [WinMapModel.finish snd]; try (apply R; cbn; auto; fail). apply (Cv k v false s'); auto.
    - destruct (g_tab g k) as [[v|r o]|]; apply R; try apply Rd; auto.
    - destruct (g_tab g k) as [[v|r o]|]; [destruct (v_mut v)|..]; apply R; try apply Pl; auto.
    - destruct (g_tab g k) as [x|] eqn:Hk; [|apply R; auto].
      assert (D : forall s', g_cnt (g_put g s' k None) = g_cnt g /\ (forall j, Some k <> Some j -> g_tab (g_put g s' k None) j = g_tab g j) /\
        forall j x', g_tab (g_put g s' k None) j = Some x' -> exists y, g_tab g j = Some y /\ same_thing y x').
      { intros s'. cbn. split; [reflexivity|]. split; [intros j Nj; apply put_other; congruence|]. intros j x' Hj. unfold put in Hj.
        destruct (Z.eqb_spec j k); [discriminate Hj|]. exists x'. split; [exact Hj|apply same_thing_refl]. }
      destruct (match x with TMap v => wdrop t (v_map v) (g_s g) | TRing r _ => win_ring_drop t r (g_s g) end) as [[u|e| | |] s']; cbn [WinMapModel.finish snd]; apply D.
    - apply R; cbn; auto.
  Qed.

  Lemma gok_act s0 g pool a : gok s0 g pool -> calm_act a = true -> act_ok t a -> gok s0 (snd (act_step t a g)) pool.
  Proof.
    intros K Hc Ha. pose proof (gok_prog t _ _ _ K) as Kp. destruct (step_spec t Ht a g Ha Kp) as (X & T & Y & S). destruct (act_tab a g Hc) as (A1 & A2 & A3).
    pose proof (goes_step t s0 a g (gk_tiled _ _ _ _ K)) as [T' Rk]. pose proof (fun h => step_sec t Ht a g h Ha Kp) as Sk.
    set (g' := snd (act_step t a g)) in *. pose proof S as [S1 S2 S3 S4 S5 S6 S7 S8 S9 S10]. destruct K as [Fm Ks Td Sg Hd Nw Sc Rv]. pose proof Fm as [W So Th Ap Ob Ow].
    assert (Fw : forall k x, g_tab g k = Some x -> fam g pool (WThing k) = Some (tab_item x)) by (intros k x E; cbn; rewrite E; reflexivity).
    split; auto.
    - apply (fam_move t Ht X T Y (g_s g) (g_s g') (fam g pool) (fam g' pool) (WThing (match tab_key a with Some k => k | None => 0 end)) Fm S2).
      + intros [k|i] N; [|reflexivity]. cbn. rewrite A2; [reflexivity|]. intros E. rewrite E in N. congruence.
      + intros b Xb. destruct (S7 b Xb) as (k & x & D & Hx & Bb). exists (tab_item x), x. split; [|auto]. assert (E : tab_key a = Some k) by (destruct a; try destruct D; reflexivity).
        rewrite E. exact (Fw k x Hx).
      + set (k := match tab_key a with Some k => k | None => 0 end). intros it Hit. cbn in Hit. destruct (g_tab g' k) as [x'|] eqn:Hk; [|discriminate Hit]. injection Hit as <-.
        destruct (A3 k x' Hk) as (x & Hx & Sm). pose proof (same_thing_of t x x' Sm) as (O1 & O2 & O3 & _). pose proof (po_thing _ _ S1 k x' Hk) as Tx.
        cbn [tab_item i_thing i_obj i_priv]. split; [|split].
        * intros y [= <-]. split; [exact Tx|]. split; [reflexivity|]. split; [reflexivity|]. intros b Bb. right. exists (tab_item x), x. split; [exact (Fw k x Hx)|].
          split; [reflexivity|apply O3, Bb].
        * exact (obj_known t _ _ Tx).
        * left. exists (tab_item x). split; [exact (Fw k x Hx)|]. cbn. auto.
    - rewrite A1. intros k x' Hk. destruct (A3 k x' Hk) as (x & Hx & _). exact (Ks k x Hx).
    - intros i pd Hi. apply (stage_keeps t s0 (g_s g)); [exact (Sg _ _ Hi)|intros h _; apply Sk| | |intros b n _; apply Rk].
      + intros it Hit Hpr. rewrite <- (fam_thread g pool i pd Hi) in Hit. destruct (Ow _ _ Hit Hpr) as [N1 N2]. pose proof (Ob _ _ Hit) as Lo.
        split; [exact (ev_size _ _ _ _ _ _ S2 _ Lo N1)|]. destruct (ev_obj _ _ _ _ _ _ S2 _ Lo N1) as [Yo|H]; [exfalso|exact H].
        destruct (S10 _ Yo) as (k & x & _ & Hx & E). apply (N2 (WThing k) (tab_item x)); [discriminate|exact (Fw k x Hx)|exact E].
      + intros it x b n Hit Hx Bb Hv. destruct (ev_view _ _ _ _ _ _ S2 _ _ Hv) as [Xb|H]; [exfalso|exact H].
        destruct (S7 b Xb) as (k & y & _ & Hy & By). rewrite <- (fam_thread g pool i pd Hi) in Hit. assert (Nz : WThread i <> WThing k) by discriminate.
        exact (Ap _ _ _ _ _ _ b Nz Hit (Fw k y Hy) Hx eq_refl Bb By).
    - intros h. rewrite Sk. exact (Sc h).
  Qed.
  Lemma gok_acts s0 pool hs : forall g, gok s0 g pool -> Forall (fun a => calm_act a = true) hs -> Forall (act_ok t) hs -> gok s0 (act_run t hs g) pool.
  Proof.
    induction hs as [|a hs IH]; intros g K C F; [exact K|]. apply Forall_cons_iff in C as [C1 C], F as [F1 F]. cbn [act_run]. apply IH; auto. apply gok_act; auto.
  Qed.

  (** ** The arguments of the calls with stages *)
  Let HB : 0 < t_bits t.
  Proof. destruct Ht as [[E|E] _]; lia. Qed.
  Let HGW : G < 2 ^ t_bits t.
  Proof. destruct Ht as ([E|E] & _ & _ & _ & H & _); rewrite E; lia. Qed.
  Let HPG : P <= G.
  Proof. apply Ht. Qed.

  Lemma nplan_len o off len total : options_ok t o -> walloc_fits t o \/ t_checks t = true -> nplan t o = Ret (off, len, total) ->
    (off = op_offset o mod P /\ total = off + len /\ 0 <= len /\ total < 2 ^ t_bits t) /\ walloc_fits t o /\ walloc_len t o len.
  Proof.
    intros (_ & Ol & Oo) Fit H. unfold nplan in H. pose proof (Z.mod_pos_bound (op_offset o) P HP) as D2. unfold size_page in H.
    rewrite (size_offset_eq t HB P (proj1 (proj2 Ht)) ltac:(lia)) in H by exact Oo. cbn [obind] in H. set (of := op_offset o mod P) in *.
    assert (En : forall n, 0 <= n -> of + n < 2 ^ t_bits t -> (let* total := uadd (E:=error) t of n in Ret (of, n, total)) = Ret (off, len, total) ->
      (off = of /\ total = off + len /\ 0 <= len /\ total < 2 ^ t_bits t) /\ len = n).
    { intros n H1 H2 K. unfold uadd in K. rewrite wrap_in in K by lia. cbn [obind] in K. injection K as <- <- <-. lia. }
    assert (Rn : forall l, is_usize t l -> (op_len o = ExtMin l \/ op_len o = ExtEnd /\ l = 1) ->
      (let* n := (let* a := uadd (E:=error) t of l in let* r := size_round t (size_alloc t) a in usub t r of) in let* total := uadd t of n in Ret (of, n, total)) = Ret (off, len, total) ->
      (off = of /\ total = off + len /\ 0 <= len /\ total < 2 ^ t_bits t) /\ walloc_fits t o /\ walloc_len t o len).
    { intros l Ul El K. assert (Ft : walloc_fits t o <-> of + l + G < 2 ^ t_bits t) by (unfold walloc_fits; destruct El as [-> | [-> ->]]; fold of; tauto).
      rewrite (walloc_round t Ht of l D2 Ul) in K. destruct (Z.ltb_spec (of + l + G) (2 ^ t_bits t)) as [Lt|Ge].
      - destruct Ul as [U1 U2]. cbn [obind] in K. pose proof (Z.div_mod (of + l + G - 1) G ltac:(lia)). pose proof (Z.mod_pos_bound (of + l + G - 1) G HG).
        destruct (En (G * ((of + l + G - 1) / G) - of) ltac:(lia) ltac:(lia) K) as [F ->]. split; [exact F|]. split; [apply Ft, Lt|].
        unfold walloc_len. fold of. destruct El as [-> | [-> ->]].
        + split; [lia|]. replace (of + (G * ((of + l + G - 1) / G) - of)) with ((of + l + G - 1) / G * G) by lia. apply Z.mod_mul. lia.
        + assert (E1 : (of + 1 + G - 1) / G = 1) by (symmetry; apply Z.div_unique with (r := of); lia). rewrite E1. lia.
      - destruct Fit as [Fit|Fit]; [apply Ft in Fit; lia|]. rewrite Fit in K. discriminate K. }
    assert (Ex : forall l, is_usize t l -> (op_len o = ExtExact l \/ op_len o = ExtMax l) ->
      (let* total := uadd (E:=error) t of l in Ret (of, l, total)) = Ret (off, len, total) ->
      (off = of /\ total = off + len /\ 0 <= len /\ total < 2 ^ t_bits t) /\ walloc_fits t o /\ walloc_len t o len).
    { intros l [U1 U2] El K. assert (Ft : walloc_fits t o <-> of + l < 2 ^ t_bits t) by (unfold walloc_fits; destruct El as [-> | ->]; fold of; tauto).
      destruct (Z_lt_le_dec (of + l) (2 ^ t_bits t)) as [Lt|Ge].
      - destruct (En l U1 Lt K) as [F ->]. split; [exact F|]. split; [apply Ft, Lt|]. unfold walloc_len. destruct El as [-> | ->]; reflexivity.
      - destruct Fit as [Fit|Fit]; [apply Ft in Fit; lia|]. unfold uadd in K. rewrite wrap_out in K by lia. rewrite Fit in K. discriminate K. }
    destruct (op_len o) as [|l|l|l] eqn:El; cbn [extent_ok] in Ol.
    - apply (Rn 1); [unfold is_usize; lia|auto|exact H].
    - apply (Ex l Ol); [auto|exact H].
    - apply (Rn l Ol); [auto|exact H].
    - apply (Ex l Ol); [auto|exact H].
  Qed.
  Lemma nplan_spec o off len total : options_ok t o -> walloc_fits t o \/ t_checks t = true -> nplan t o = Ret (off, len, total) ->
    off = op_offset o mod P /\ total = off + len /\ 0 <= len /\ total < 2 ^ t_bits t.
  Proof. intros Oo Fit H. exact (proj1 (nplan_len o off len total Oo Fit H)). Qed.
  Lemma ring_plan hint len full : is_usize t hint ->
    (let* len := size_round (E:=error) t (size_alloc t) hint in let* full := umul t 2 len in Ret (len, full)) = Ret (len, full) ->
    is_usize t len /\ len mod G = 0 /\ is_usize t full /\ (len = 0 -> full = 0).
  Proof.
    intros Hh H. pose proof (proj1 (proj2 (proj2 Ht))) as Gp. assert (W : 0 < 2 ^ t_bits t) by (apply Z.pow_pos_nonneg; lia).
    assert (Hl : forall l, size_round (E:=error) t (size_alloc t) hint = Ret l -> is_usize t l /\ l mod G = 0).
    { intros l E. unfold size_alloc in E. destruct Hh as [H0 H1]. destruct (Z.lt_trichotomy (hint + G) (2 ^ t_bits t)) as [C|[C|C]].
      - rewrite (size_round_in t HB G Gp HGW) in E by lia. injection E as <-. pose proof (Z.div_mod (hint + G - 1) G ltac:(lia)). pose proof (Z.mod_pos_bound (hint + G - 1) G HG).
        assert (0 <= (hint + G - 1) / G) by (apply Z.div_pos; lia). split; [unfold is_usize; nia|]. rewrite Z.mul_comm. apply Z.mod_mul. lia.
      - rewrite (size_round_edge t HB G Gp HGW) in E by exact C. destruct (t_checks t); [discriminate E|]. injection E as <-. split; [unfold is_usize; lia|].
        destruct (unit_divides_word t HB G Gp HGW) as [k Hk]. replace hint with ((k - 1) * G) by lia. apply Z.mod_mul. lia.
      - rewrite (size_round_over t HB G Gp HGW) in E by (try lia; split; lia). destruct (t_checks t); [discriminate E|]. injection E as <-. split; [unfold is_usize; lia|apply Z.mod_0_l; lia]. }
    destruct (size_round (E:=error) t (size_alloc t) hint) as [l|e| | |] eqn:E; try discriminate H. cbn [obind] in H. destruct (Hl l eq_refl) as [Ul Ml].
    unfold umul, wrap in H. destruct ((0 <=? 2 * l) && (2 * l <? 2 ^ t_bits t)) eqn:C; [apply andb_true_iff in C as [C1 C2]; apply Z.leb_le in C1; apply Z.ltb_lt in C2|destruct (t_checks t); [discriminate H|]];
      cbn [obind] in H; injection H as <- <-; (split; [exact Ul|]); (split; [exact Ml|]); unfold is_usize.
    - split; [split; assumption|intros ->; reflexivity].
    - split; [apply Z.mod_pos_bound; exact W|]. intros ->. apply Z.mod_0_l. lia.
  Qed.

  Lemma calm_trace c p : wpok t p -> wpcall_ok t c -> wstaged c = false ->
    exists hs, wp_g (snd (wpstep t c p)) = act_run t hs (wp_g p) /\ Forall (act_ok t) hs /\ Forall (fun a => calm_act a = true) hs.
  Proof.
    intros K Hc Sg. assert (Nil : exists hs, wp_g p = act_run t hs (wp_g p) /\ Forall (act_ok t) hs /\ Forall (fun a => calm_act a = true) hs) by (exists []; auto).
    assert (Eg : g_set (wp_g p) (g_s (wp_g p)) = wp_g p) by (destruct (wp_g p); reflexivity).
    assert (Rs : forall k o s' p', wp_g p' = g_set (wp_g p) s' -> run_sets t (wp_g p) k o (g_s (wp_g p)) s' ->
      exists hs, wp_g p' = act_run t hs (wp_g p) /\ Forall (act_ok t) hs /\ Forall (fun a => calm_act a = true) hs).
    { intros k o s' p' E [(hs & S1 & S2 & S3) _]. rewrite Eg in *. exists hs. rewrite E. split; [exact S3|]. split; [exact (tidy_run_ok t hs _ S2)|].
      refine (Forall_impl _ _ S1). intros a (i & b & ->). reflexivity. }
    destruct c as [a|hint|hint|k o|k o|k]; try discriminate Sg; cbn [wpcall_ok wpstep] in *.
    - destruct (on_maps p a) eqn:O; [|exact Nil]. destruct (act_step t a (wp_g p)) as [r g'] eqn:E. exists [a]. cbn. rewrite E. split; [reflexivity|]. split; [auto|].
      constructor; [|constructor]. destruct a; try discriminate Sg; auto.
    - destruct (wp_ring p k) as [[v|v]|] eqn:Hk; try exact Nil. destruct (wk_ring _ _ K _ _ Hk) as (F & ob & Ho).
      destruct (kring_step t win (wpeek t) (wpoke t) o v (g_s (wp_g p))) as [x [v' s']] eqn:E. cbn [snd].
      destruct (wring_call t Ht _ _ _ _ _ _ _ _ _ _ Ho F (rst_now t _ _ _ (wk_prog _ _ K)) Hc E) as (F' & Ea & R & _). exact (Rs k ob s' (wp_put p s' k (HRing v')) eq_refl R).
    - destruct (wp_ring p k) as [[v|v]|] eqn:Hk; try exact Nil. destruct (wk_ring _ _ K _ _ Hk) as (F & ob & Ho).
      destruct (kiring_step t win (wpeek t) (wpoke t) o v (g_s (wp_g p))) as [x [v' s']] eqn:E. cbn [snd].
      destruct (winf_call t Ht _ _ _ _ _ _ _ _ _ _ Ho F (rst_now t _ _ _ (wk_prog _ _ K)) Hc E) as (F' & Ea & R & _). exact (Rs k ob s' (wp_put p s' k (HInf v')) eq_refl R).
  Qed.

  (** ** Every event *)
  Lemma go_ok s0 s tid pd : wtok s0 s -> wt_pool s tid = Some pd -> wtok s0 (snd (wgo t tid pd s)).
  Proof.
    intros [K Rg] Hp. pose proof (gk_fam _ _ _ _ K) as [W So _ _ _ _].
    pose proof (wadvance_ok t Ht s0 _ pd W So (gk_tiled _ _ _ _ K) (gk_stage _ _ _ _ K _ _ Hp) (gok_item _ _ _ _ _ K Hp)) as A. cbv zeta in A. unfold wgo.
    pose proof (gk_keys _ _ _ _ K) as Ks.
    assert (Ro : forall s' x k h, wp_ring (wt_p s) k = Some h -> h_fit t h /\ exists o, g_tab (g_add (wp_g (wt_p s)) s' x) k = Some (TRing (h_alloc h) o)).
    { intros s' x k h Hk. destruct (Rg k h Hk) as (F & o & Ho). split; [exact F|]. exists o. cbn. rewrite put_other; [exact Ho|]. pose proof (Ks _ _ Ho). lia. }
    destruct (wadvance t pd (g_s (wp_g (wt_p s)))) as [x s']. cbn [fst snd] in A. destruct x as [pd'|mut own o fd ob m|mut o ob m|inf ob pg len|r]; cbn [good_outcome snd] in *.
    - destruct A as [M St]. split; cbn [wt_p wt_pool wset_pool wp_set wp_g wp_ring]; [|exact Rg].
      apply (gok_more s0 (wp_g (wt_p s)) (wt_pool s) tid pd s' (Some pd') K Hp M). intros pe [= <-]. exact St.
    - split; cbn [wt_p wt_pool wset_pool wp_set wp_g wp_ring]; [|intros k h Hk; apply Ro, Hk]. exact (gok_made s0 _ _ tid pd s' _ K Hp A).
    - destruct A as [A _]. split; cbn [wt_p wt_pool wset_pool wp_set wp_g wp_ring]; [|intros k h Hk; apply Ro, Hk]. exact (gok_made s0 _ _ tid pd s' _ K Hp A).
    - destruct A as [A _]. pose proof (gok_made s0 _ _ tid pd s' _ K Hp A) as K'. split; cbn [wt_p wt_pool wset_pool wp_set wp_g wp_ring]; [exact K'|].
      intros k h Hk. unfold put in Hk. destruct (Z.eqb_spec k (g_cnt (wp_g (wt_p s)))) as [->|N]; [|apply Ro, Hk]. injection Hk as <-.
      assert (Ht' : g_tab (g_add (wp_g (wt_p s)) s' (TRing {| ra_ptr := pg; ra_len := len |} ob)) (g_cnt (wp_g (wt_p s))) = Some (TRing {| ra_ptr := pg; ra_len := len |} ob)) by (cbn; apply put_same).
      pose proof (po_thing _ _ (gok_prog t _ _ _ K') _ _ Ht') as (n & [R1 R2 R3 R4 R5 _ _ _ _ _]). cbn [ra_ptr ra_len] in *.
      destruct (new_fit_win t Ht pg len ltac:(nia) ltac:(nia)) as [F1 F2]. split; [destruct inf; assumption|]. exists ob. rewrite Ht'. destruct inf; reflexivity.
    - split; cbn [wt_p wt_pool wset_pool wp_set wp_g wp_ring]; [|exact Rg].
      apply (gok_more s0 (wp_g (wt_p s)) (wt_pool s) tid pd s' None K Hp A). discriminate.
  Qed.
  Lemma event_ok s0 s e : wtok s0 s -> wev_ok t e -> wtok s0 (snd (wtstep t e s)).
  Proof.
    intros K He. pose proof K as [Kg Rg].
    assert (Begin : forall tid f, (wt_pool s tid = None -> wtok s0 (snd f)) -> wtok s0 (snd (wbegin tid s f))).
    { intros tid f H. unfold wbegin. destruct (wt_pool s tid); [exact K|auto]. }
    assert (Start : forall tid pd, wt_pool s tid = None -> stage_ok s0 (g_s (wp_g (wt_p s))) pd -> wpiece t pd = None -> wpd_handle pd = None -> wpd_resv pd = None ->
      wtok s0 (wset_pool s (wt_p s) tid (Some pd))).
    { intros tid pd H1 H2 H3 H4 H5. split; cbn [wt_p wt_pool wset_pool]; [|exact Rg]. apply gok_start; auto. }
    destruct e as [c|tid mut o path|tid mut o fd|tid mut o|tid inf hint|tid k|tid]; cbn [wtstep wev_ok] in *.
    - destruct He as [Hc Sg]. pose proof (wtok_wpok t s0 s K) as Kp. destruct (calm_trace c _ Kp Hc Sg) as (hs & H1 & H2 & H3).
      destruct (wpstep_traced t Ht c _ Kp Hc) as (hs' & T). pose proof (tr_pok _ _ _ _ _ T) as Kp'. destruct (wpstep t c (wt_p s)) as [x p']. cbn [snd] in *.
      split; cbn [wt_p wt_pool]; [|exact (wk_ring _ _ Kp')]. rewrite H1. apply gok_acts; auto.
    - apply Begin. intros Hp. apply Start; auto.
    - apply Begin. intros Hp. apply Start; auto.
    - apply Begin. intros Hp. destruct He as [Ho Fit]. destruct (nplan t o) as [[[off len] total]|er| | |] eqn:E; try exact K. apply Start; auto. exact (nplan_spec o off len total Ho Fit E).
    - apply Begin. intros Hp. destruct (let* len := size_round (E:=error) t (size_alloc t) hint in let* full := umul t 2 len in Ret (len, full)) as [[len full]|er| | |] eqn:E; try exact K.
      apply Start; auto. exact (ring_plan hint len full He E).
    - apply Begin. intros Hp. destruct (wp_ring (wt_p s) k) as [h|] eqn:Hk; [|exact K]. destruct (Rg k h Hk) as (F & ob & Ho). rewrite Ho.
      split; cbn [wt_p wt_pool wset_pool wp_g wp_ring snd].
      + exact (gok_drop s0 _ _ tid k _ ob Kg Hp Ho).
      + intros j h' Hj. unfold put in Hj. destruct (Z.eqb_spec j k) as [->|N]; [discriminate Hj|]. destruct (Rg j h' Hj) as (F' & o & Ho'). split; [exact F'|]. exists o.
        cbn. rewrite put_other by exact N. exact Ho'.
    - destruct (wt_pool s tid) as [pd|] eqn:Hp; [|exact K]. exact (go_ok s0 s tid pd K Hp).
  Qed.
  Lemma widle_ok s0 : fresh_start s0 -> wtok s0 (widle s0).
  Proof.
    intros Fs. pose proof (proj1 (start_ok t s0 Fs)) as [W So _ _ _ _]. split; [|intros k h Hk; discriminate Hk]. split; cbn; try discriminate; auto.
    - split; auto; intros [k|i] it; cbn; discriminate.
    - exact (tiled_start t s0 Fs).
  Qed.
  Lemma wtreached_ok s0 s : wtreached t s0 s -> wtok s0 s.
  Proof. induction 1 as [Fs|s e R IH He]; [apply widle_ok, Fs|apply event_ok; assumption]. Qed.
End Step.
