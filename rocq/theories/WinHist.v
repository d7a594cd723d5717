(** Histories of maps and rings on Windows: what every call keeps. *)
From Coq Require Import Lia.
From Verif Require Import Base Spec ErrorModel SizeModel OsModel MapModel MapSpec RingMapModel RingMapSpec SizeProofs OsProofs
  MapProofs MapCreate MapOps MirrorProofs RingMapClaims WinModel WinSpec WinProofs WinClaims WinCalls WinMapModel WinMapSpec WinSpace WinOthers WinKeep WinMapProofs WinAlloc WinThings.

Section Hist.
  Variable t : target.
  Hypothesis Ht : good_target t.
  Notation P := (t_page t).
  Notation G := (t_alloc t).
  Notation q := (as_posix t).
  Let HP : 0 < P.
  Proof. exact (pow2_pos _ (proj1 (proj2 Ht))). Qed.
  Let HG : 0 < G.
  Proof. exact (pow2_pos _ (proj1 (proj2 (proj2 Ht)))). Qed.
  Let Hq : posix_target q.
  Proof. exact (posix_of t Ht). Qed.
  Let HB : 0 < t_bits t.
  Proof. destruct Ht as [[E|E] _]; lia. Qed.
  Let HGW : G < 2 ^ t_bits t.
  Proof. destruct Ht as ([E|E] & _ & _ & _ & H & _); rewrite E; lia. Qed.
  Let HPG : P <= G.
  Proof. apply Ht. Qed.

  (** ** New maps *)
  Lemma made_fresh s s1 s' m o off V p : space_ok t s -> (forall a, n_view s1 a = n_view s a) ->
    (forall pg, w_vm (n_w s1) pg = None -> w_vm (n_w s) pg = None) -> map_made t s1 s' m o off V p -> n_view s (map_base t m) = None.
  Proof.
    intros So Ev Ep [(V0 & Vg & Vl & Vh & Va & Vs) _ _ _ _]. set (b := map_base t m) in *.
    destruct (n_view s b) as [n|] eqn:E; [exfalso|reflexivity].
    destruct (so_view _ _ So b n E) as (Np & _). pose proof (npages_pos t HP V V0).
    destruct (so_mapped _ _ So b n (b / P) E) as (e & He); [unfold in_view; lia|].
    rewrite (Ep (b / P)) in He; [discriminate He|]. apply (ov_in _ _ _ _ _ Va). lia.
  Qed.

  Lemma made_map_ok s1 s' v off V p : v_prot v = p -> v_off v = off -> v_w v = prot_writes p ->
    map_made t s1 s' (v_map v) (v_obj v) off V p -> v_obj v < w_next (n_w s') ->
    (v_anon v = true -> off + m_len (v_map v) <= o_size (w_obj (n_w s') (v_obj v))) -> map_ok t s' v.
  Proof.
    intros <- <- Ew M Ho Ha. pose proof (made_in t Ht _ _ _ _ _ _ _ M) as (I1 & I2 & I3 & I4 & I5 & I6 & I7 & I8).
    pose proof (md_off _ _ _ _ _ _ _ _ M). split; auto.
    - eauto.
    - intros C. exact (proj1 (made_backed t Ht _ _ _ _ _ _ _ M C)).
    - intros X pg e Hp He. rewrite Ew in X.
      assert (C : 0 < m_ptr (v_map v) mod P + m_len (v_map v)).
      { unfold own_page, page_count in Hp. pose proof (npages_bounds t HP (m_ptr (v_map v) mod P + m_len (v_map v))).
        pose proof (Z.mod_pos_bound (m_ptr (v_map v)) P HP). destruct (Z.eq_dec (m_ptr (v_map v) mod P + m_len (v_map v)) 0); [nia|lia]. }
      rewrite (proj1 (proj2 (made_backed t Ht _ _ _ _ _ _ _ M C) pg e Hp He)). exact X.
  Qed.

  (** ** Programs *)
  Lemma same_thing_of x y : same_thing x y -> obj_of y = obj_of x /\ private_thing y = private_thing x /\
    (forall a, bases_of t y a <-> bases_of t x a) /\ addr_of y = addr_of x /\ size_of y = size_of x.
  Proof.
    destruct x as [v|r o], y as [v'|r' o']; cbn -[Z.mul]; try contradiction.
    - intros (E1 & E2 & _ & _ & E5). rewrite E1, E2, E5. repeat split; auto.
    - intros (-> & ->). repeat split; auto.
  Qed.
  Lemma same_thing_refl x : same_thing x x.
  Proof. destruct x; cbn; auto 6. Qed.

  Lemma obj_known s x : thing_ok t s x -> obj_of x < w_next (n_w s).
  Proof. destruct x as [v|r o]; [intros H; apply H|intros (n & H); apply H]. Qed.

  Lemma pages_apart g k x j y p : prog_ok t g -> g_tab g k = Some x -> g_tab g j = Some y -> k <> j ->
    thing_page t x p -> ~ thing_page t y p.
  Proof.
    intros [_ So _ Th Ap _] Hx Hy N Px Py.
    destruct (thing_in_view t Ht _ _ _ (Th _ _ Hx) Px) as (a & n & Ba & Va & Ia).
    destruct (thing_in_view t Ht _ _ _ (Th _ _ Hy) Py) as (b & m & Bb & Vb & Ib).
    pose proof (so_apart _ _ So a n b m p Va Vb Ia Ib). subst b. exact (Ap _ _ _ _ _ Hx Hy N Ba Bb).
  Qed.

  Lemma prog_next (X T Y : Z -> Prop) g s' tab : prog_ok t g -> evolves t X T Y (g_s g) s' ->
    (forall k x, tab k = Some x -> exists y, g_tab g k = Some y /\ same_thing y x /\ thing_ok t s' x) ->
    prog_ok t {| g_s := s'; g_tab := tab; g_cnt := g_cnt g |}.
  Proof.
    intros [W So Ks Th Ap Ow] E H. split; cbn.
    - exact (ev_wf _ _ _ _ _ _ E W).
    - exact (ev_space _ _ _ _ _ _ E So).
    - intros k x Hx. destruct (H k x Hx) as (y & Hy & _). eauto.
    - intros k x Hx. destruct (H k x Hx) as (y & _ & _ & K). exact K.
    - intros k x j y a Hx Hy N Ba Bb. destruct (H k x Hx) as (x0 & Hx0 & Sx & _). destruct (H j y Hy) as (y0 & Hy0 & Sy & _).
      apply same_thing_of in Sx as (_ & _ & Sx & _). apply same_thing_of in Sy as (_ & _ & Sy & _).
      apply Sx in Ba. apply Sy in Bb. exact (Ap _ _ _ _ _ Hx0 Hy0 N Ba Bb).
    - intros k x Hx Px. destruct (H k x Hx) as (x0 & Hx0 & Sx & _). apply same_thing_of in Sx as (Eo & Ep & _). rewrite Eo. rewrite Ep in Px.
      destruct (Ow k x0 Hx0 Px) as [Nn Od]. split.
      + intros Nm. apply (ev_named _ _ _ _ _ _ E) in Nm as [Nm|Nm]; [contradiction|]. pose proof (obj_known _ _ (Th _ _ Hx0)). lia.
      + intros j y Hy N. destruct (H j y Hy) as (y0 & Hy0 & Sy & _). apply same_thing_of in Sy as (-> & _). exact (Od j y0 Hy0 N).
  Qed.

  (** Nothing of what is held is touched. *)
  Lemma live_on (X T Y : Z -> Prop) g s' k x : prog_ok t g -> evolves t X T Y (g_s g) s' -> g_tab g k = Some x ->
    (forall a, X a -> ~ bases_of t x a) -> thing_ok t s' x.
  Proof.
    intros [W So Ks Th Ap Ow] E Hx HX. apply (thing_ev t Ht X T Y (g_s g) s' x So E HX); [|exact (Th _ _ Hx)].
    intros Px. exact (proj1 (Ow _ _ Hx Px)).
  Qed.
  Lemma prog_same (T Y : Z -> Prop) g s' : prog_ok t g -> evolves t none T Y (g_s g) s' -> prog_ok t (g_set g s').
  Proof.
    intros G E. apply (prog_next none T Y g s' (g_tab g) G E). intros k x Hx. exists x. split; [exact Hx|]. split; [apply same_thing_refl|].
    apply (live_on none T Y g s' k x G E Hx). intros a [].
  Qed.

  Lemma prog_add g s' x : prog_ok t g -> keeps t (g_s g) s' -> thing_ok t s' x ->
    (forall a, bases_of t x a -> n_view (g_s g) a = None) ->
    (if private_thing x then w_next (n_w (g_s g)) <= obj_of x /\ ~ named (n_w s') (obj_of x) else named (n_w s') (obj_of x)) ->
    prog_ok t (g_add g s' x).
  Proof.
    intros G E Hx Fr Pr. pose proof (prog_same none none g s' G E) as [W So Ks Th Ap Ow]. cbn in *. pose proof G as [W0 So0 Ks0 Th0 Ap0 Ow0].
    assert (Old : forall k y, put (g_tab g) (g_cnt g) (Some x) k = Some y -> (k = g_cnt g /\ y = x) \/ (k <> g_cnt g /\ g_tab g k = Some y)).
    { intros k y H. unfold put in H. destruct (Z.eqb_spec k (g_cnt g)); [left; split; congruence|auto]. }
    assert (FB : forall k y a, g_tab g k = Some y -> bases_of t y a -> ~ bases_of t x a).
    { intros k y a Hy By Bx. destruct (bases_view t _ _ _ (Th0 _ _ Hy) By) as (n & V). rewrite (Fr _ Bx) in V. discriminate V. }
    split; cbn; auto.
    - intros k y H. apply Old in H as [[-> _]|[_ H]]; [lia|]. pose proof (Ks0 _ _ H). lia.
    - intros k y H. apply Old in H as [[_ ->]|[_ H]]; [exact Hx|exact (Th _ _ H)].
    - intros k y j z a Hy Hz N By Bz. apply Old in Hy as [[-> ->]|[Nk Hy]]; apply Old in Hz as [[-> ->]|[Nj Hz]].
      + contradiction.
      + exact (FB _ _ _ Hz Bz By).
      + exact (FB _ _ _ Hy By Bz).
      + exact (Ap0 _ _ _ _ _ Hy Hz N By Bz).
    - intros k y Hy Py. apply Old in Hy as [[-> ->]|[Nk Hy]].
      + rewrite Py in Pr. split; [apply Pr|]. intros j z Hz N. apply Old in Hz as [[-> _]|[Nj Hz]]; [contradiction|].
        pose proof (obj_known _ _ (Th0 _ _ Hz)). lia.
      + destruct (Ow _ _ Hy Py) as [O1 O2]. split; [exact O1|]. intros j z Hz N. apply Old in Hz as [[-> ->]|[Nj Hz]]; [|exact (O2 _ _ Hz N)].
        pose proof (obj_known _ _ (Th0 _ _ Hy)) as Lt. destruct (private_thing x); [lia|]. congruence.
  Qed.

  (** ** Steps *)
  Definition drops (a : act) (k : Z) : Prop := match a with ADrop k' => k' = k | _ => False end.
  Record stepped (a : act) (g g' : prog) (X T Y : Z -> Prop) : Prop := {
    st_ok : prog_ok t g';
    st_ev : evolves t X T Y (g_s g) (g_s g');
    st_X : forall k x b, g_tab g k = Some x -> ~ drops a k -> X b -> ~ bases_of t x b;
    st_tab : forall k x, g_tab g k = Some x -> ~ drops a k -> exists x', g_tab g' k = Some x' /\ same_thing x x';
    st_T : forall k x p, g_tab g k = Some x -> ~ touches a k -> T p -> ~ thing_page t x p;
    st_Y : forall k x, g_tab g k = Some x -> private_thing x = true -> ~ touches a k -> ~ Y (obj_of x);
    st_only : forall b, X b -> exists k x, drops a k /\ g_tab g k = Some x /\ bases_of t x b;
    st_from : forall k x', g_tab g' k = Some x' ->
       (exists x, g_tab g k = Some x /\ same_thing x x') \/ (forall b, bases_of t x' b -> n_view (g_s g) b = None);
    st_To : forall p, T p -> exists k x, touches a k /\ g_tab g k = Some x /\ thing_page t x p;
    st_Yo : forall o, Y o -> exists k x, touches a k /\ g_tab g k = Some x /\ obj_of x = o
  }.

  Lemma stepped_same a g s' : prog_ok t g -> keeps t (g_s g) s' -> stepped a g (g_set g s') none none none.
  Proof.
    intros G E. split; cbn; auto.
    - exact (prog_same none none g s' G E).
    - intros k x Hx _. exists x. split; [exact Hx|apply same_thing_refl].
    - intros b [].
    - intros k x Hx. left. exists x. split; [exact Hx|apply same_thing_refl].
    - intros p [].
    - intros o [].
  Qed.
  Lemma stepped_id a g : prog_ok t g -> stepped a g g none none none.
  Proof.
    intros G. split; auto; try (intros; intros []; fail).
    - apply ev_refl.
    - intros k x Hx _. exists x. split; [exact Hx|apply same_thing_refl].
    - intros b [].
    - intros k x Hx. left. exists x. split; [exact Hx|apply same_thing_refl].
    - intros p [].
    - intros o [].
  Qed.
  Lemma stepped_add a g s' x : prog_ok t g -> keeps t (g_s g) s' -> thing_ok t s' x ->
    (forall b, bases_of t x b -> n_view (g_s g) b = None) ->
    (if private_thing x then w_next (n_w (g_s g)) <= obj_of x /\ ~ named (n_w s') (obj_of x) else named (n_w s') (obj_of x)) ->
    stepped a g (g_add g s' x) none none none.
  Proof.
    intros G E Hx Fr Pr. split; cbn; auto.
    - exact (prog_add g s' x G E Hx Fr Pr).
    - intros k y Hy _. pose proof (po_keys _ _ G _ _ Hy). exists y. rewrite put_other by lia. split; [exact Hy|apply same_thing_refl].
    - intros b [].
    - intros k y Hy. unfold put in Hy. destruct (k =? g_cnt g); [injection Hy as <-; auto|]. left. exists y. split; [exact Hy|apply same_thing_refl].
    - intros p [].
    - intros o [].
  Qed.

  (** ** Files *)
  Lemma map_if_thing mut o fd s r s' : wf (n_w s) -> space_ok t s -> options_ok t o -> wmap_if t o fd s = (r, s') ->
    keeps t s s' /\
    match r with
    | Ret (Some m) => let x := held_file mut o s' fd m in
        thing_ok t s' x /\ (forall b, bases_of t x b -> n_view s b = None) /\ named (n_w s') (obj_of x)
    | Ret None | Err _ => True
    | _ => False
    end.
  Proof.
    intros W So Oo H. apply (wmap_if_spec t Ht) in H as [K H]; auto. split; [exact K|].
    destruct (w_fd (n_w s) fd) as [f|] eqn:Ef; [|destruct H as (e & -> & _); exact I].
    destruct H as (w1 & Fd & H). cbv zeta in H. destruct r as [[m|]|e| | |]; auto.
    destruct H as (L & _ & _ & _ & _ & R & N & _ & M). cbv zeta.
    pose proof (fdn_touched _ _ _ _ _ Fd) as [Tv Tn Tf Ts _ _].
    assert (E' : w_fd (n_w s') fd = Some f) by (rewrite (sr_fd _ _ R); cbn; rewrite Tf; exact Ef).
    assert (Eo : fd_objw (n_w s') fd = fd_obj f) by (unfold fd_objw; rewrite E'; reflexivity).
    assert (Nm : named (n_w s') (fd_obj f)) by (left; exists fd, f; auto).
    unfold held_file. rewrite Eo. cbn [thing_ok bases_of obj_of v_obj v_map].
    split; [|split; [|exact Nm]].
    - eapply made_map_ok; cbn; try reflexivity; [exact M| |discriminate].
      exact (named_wf _ _ (ev_wf _ _ _ _ _ _ K W) Nm).
    - intros b ->. refine (made_fresh s (with_w s w1) s' m _ _ _ _ So _ _ M); [reflexivity|].
      intros pg Hp. cbn in Hp. specialize (Tv pg). rewrite Hp in Tv. destruct (w_vm (n_w s) pg); [contradiction|reflexivity].
  Qed.

  Lemma open_if_thing mut o path s r s' : wf (n_w s) -> space_ok t s -> options_ok t o -> wopen_if t o path s = (r, s') ->
    keeps t s s' /\
    match r with
    | Ret (Some m, fd) => let x := held_file mut o s' fd m in
        thing_ok t s' x /\ (forall b, bases_of t x b -> n_view s b = None) /\ named (n_w s') (obj_of x)
    | Ret (None, _) | Err _ => True
    | _ => False
    end.
  Proof.
    intros W So Oo H. unfold wopen_if in H.
    assert (FO : forall x w1, file_open t (op_open o) path (n_w s) = (x, w1) -> keeps t s (with_w s w1) /\ match x with Ret _ | Err _ => True | _ => False end).
    { intros x w1 E. split; [exact (file_open_keeps t Ht _ _ _ _ _ W E)|]. apply file_open_spec in E. destruct x; auto. }
    unfold wbind at 1, lift, io_call in H. destruct (file_open t (op_open o) path (n_w s)) as [x w1] eqn:E.
    destruct (FO x w1 eq_refl) as [K Hx]. destruct x as [fd|e| | |]; try contradiction.
    2:{ assert (X : r = Err (map_file_err e) /\ s' = with_w s w1) by (injection H; auto). destruct X as [-> ->]. auto. }
    set (s1 := with_w s w1) in *. unfold wbind, wclosing in H. destruct (wmap_if t o fd s1) as [y s2] eqn:E2.
    pose proof (map_if_thing mut o fd s1 y s2 (ev_wf _ _ _ _ _ _ K W) (ev_space _ _ _ _ _ _ K So) Oo E2) as [K2 Hy].
    pose proof (ev_trans t _ _ _ _ _ W K K2) as K3.
    destruct y as [m|e| | |]; try contradiction.
    - assert (X : r = Ret (m, fd) /\ s' = s2) by (injection H; auto). destruct X as [-> ->]. split; [exact K3|].
      destruct m as [m|]; [|exact I]. cbv zeta in Hy |- *. destruct Hy as (Y1 & Y2 & Y3). split; [exact Y1|]. split; [|exact Y3].
      intros b Hb. exact (Y2 b Hb).
    - assert (X : r = Err e /\ s' = with_w s2 (snd (sys_close fd (n_w s2)))) by (injection H; auto). destruct X as [-> ->].
      split; [|exact I]. exact (ev_trans t _ _ _ _ _ W K3 (sys_close_keeps t fd s2)).
  Qed.

  Lemma alloc_thing mut o s r s' : wf (n_w s) -> space_ok t s -> options_ok t o -> walloc_fits t o \/ t_checks t = true ->
    walloc t o s = (r, s') ->
    keeps t s s' /\
    match r with
    | Ret m => let x := held_anon t mut o s m in
        thing_ok t s' x /\ (forall b, bases_of t x b -> n_view s b = None) /\ w_next (n_w s) <= obj_of x /\ ~ named (n_w s') (obj_of x)
    | Err _ | Panic => True
    | _ => False
    end.
  Proof.
    intros W So Oo Fi H. apply (walloc_spec t Ht) in H as (K & R & H); auto. split; [exact K|].
    destruct r as [m|e| | |]; auto. destruct H as (_ & _ & N & M & _ & Sz). cbv zeta. unfold held_anon. cbn [thing_ok bases_of obj_of v_obj v_map].
    split; [|split; [|split; [lia|]]].
    - eapply made_map_ok; cbn; try reflexivity; [exact M|exact N|auto].
    - intros b ->. exact (made_fresh s s s' m _ _ _ _ So (fun _ => eq_refl) (fun _ X => X) M).
    - intros Nm. apply (named_eq _ _ (sr_fd _ _ R) (sr_fs _ _ R)) in Nm. pose proof (named_wf _ _ W Nm). lia.
  Qed.

  Lemma ring_thing hint s r s' : wf (n_w s) -> is_usize t hint -> win_ring_new t hint s = (r, s') ->
    keeps t s s' /\
    match r with
    | Ret a => let x := TRing a (w_next (n_w s)) in
        thing_ok t s' x /\ (forall b, bases_of t x b -> n_view s b = None) /\ w_next (n_w s) <= obj_of x /\ ~ named (n_w s') (obj_of x)
    | Err _ | Panic => True
    | _ => False
    end.
  Proof.
    intros W Hh H.
    assert (Bad : (forall a, r <> Ret a) -> keeps t s s' /\ match r with Err _ | Panic => True | _ => False end).
    { intros Hr. unfold win_ring_new in H. pose proof (round_cases t Ht hint Hh) as RC. unfold wbind at 1, wout in H.
      destruct (size_round (E:=error) t (size_alloc t) hint) as [len|e| | |]; try contradiction.
      - destruct RC as [Ul _]. apply wbind_run in H as [(pg & s1 & E & H)|H].
        { exfalso. injection H as <- <-. exact (Hr _ eq_refl). }
        destruct H as [(e & E & ->)|[[E ->]|[[E ->]|[E ->]]]]; (split; [exact (proj1 (map_ring_keeps t Ht _ _ _ _ W Ul E))|]);
          apply (win_map_ring_spec t Ht) in E as (l & _ & _ & _ & E); auto.
      - injection H as <- <-. split; [apply ev_refl|exact I]. }
    destruct r as [a|e| | |]; try (apply Bad; discriminate). clear Bad.
    apply (win_ring_new_spec t Ht) in H as (_ & H & Ul); [|exact Hh].
    pose proof (map_ring_keeps t Ht _ _ _ _ W Ul H) as [K [F1 F2]].
    apply (win_map_ring_spec t Ht) in H as (l & _ & _ & R & (n & En & [R1 R2 R3 R4 R5 R6 R7 R8 R9 R10 R11]) & _); [|exact Ul].
    split; [exact K|]. cbv zeta. cbn [thing_ok bases_of obj_of]. split; [|split; [|split; [lia|]]].
    - exists n. split; auto; rewrite ?En; auto.
      + exact (aligned_page t Ht _ R2).
      + intros k Hk. rewrite (R6 k Hk). eexists. split; [reflexivity|]. cbn. auto 8.
      + intros k e Hk. rewrite (R6 k Hk). intros X. injection X as <-. reflexivity.
    - intros b [-> | ->]; auto.
    - intros Nm. apply (named_eq _ _ (sr_fd _ _ R) (sr_fs _ _ R)) in Nm. pose proof (named_wf _ _ W Nm). lia.
  Qed.

  (** ** Drops *)
  Lemma unmap_out a s r s' : unmap_view t a s = (r, s') -> match r with Ret _ | Err _ => True | _ => False end.
  Proof. intros H. apply unmap_view_spec in H as [_ H]. destruct r; auto. Qed.
  Lemma ring_drop_ev r o n s x s' : wf (n_w s) -> ring_ok t s r o n -> win_ring_drop t r s = (x, s') ->
    x = Ret tt /\ evolves t (fun a => a = ra_ptr r \/ a = ra_ptr r + ra_len r) none none s s'.
  Proof.
    intros W [R1 R2 R3 R4 R5 [R6 R6'] R7 R8 R9] H. unfold win_ring_drop, win_unmap_ring in H.
    assert (EP : ptr_add t (ra_ptr r) (ra_len r) = ra_ptr r + ra_len r).
    { unfold ptr_add, as_usize. apply Z.mod_small. rewrite R2 in *. nia. }
    rewrite EP in H.
    destruct (wbind (win_call RingDeallocate (unmap_view t (ra_ptr r + ra_len r))) (fun _ => no_result (unmap_view t (ra_ptr r))) s) as [y s2] eqn:E.
    assert (K : evolves t (fun a => a = ra_ptr r \/ a = ra_ptr r + ra_len r) none none s s2 /\ match y with Ret z => z = tt | Err _ => True | _ => False end).
    { clear H. apply wbind_run in E as [([] & s1 & E1 & E)|E].
      - apply win_call_run in E1. apply no_result_run in E as (z & E3 & Ez).
        pose proof (unmap_out _ _ _ _ E3) as Hz.
        pose proof (unmap_view_ev t _ _ _ _ E1) as [A1 A2]. pose proof (unmap_view_ev t _ _ _ _ E3) as [B1 B2].
        assert (y = Ret tt) by (destruct z; auto; contradiction). subst y. split; [|reflexivity].
        refine (ev_weaken t _ _ _ _ _ _ _ _ _ _ _ (ev_trans_gen t _ _ _ _ _ _ _ W _ _ A1 B1)); auto.
        + intros a [->| ->]; auto.
      - destruct E as [(e & E & ->)|[[E ->]|[[E ->]|[E ->]]]]; apply win_call_run in E; try (exfalso; exact (unmap_out _ _ _ _ E)).
        destruct E as (c & E & _). split; [|exact I]. refine (ev_weaken t _ _ _ _ _ _ _ _ _ _ _ (proj1 (unmap_view_ev t _ _ _ _ E))); auto. }
    destruct K as [K Hy]. destruct y as [[]|e| | |]; try contradiction; injection H as <- <-; auto.
  Qed.

  Lemma drop_thing x s r s' : wf (n_w s) -> thing_ok t s x ->
    match x with TMap v => wdrop t (v_map v) s | TRing a _ => win_ring_drop t a s end = (r, s') ->
    r = Ret tt /\ evolves t (bases_of t x) none none s s'.
  Proof.
    intros W H E. destruct x as [v|a o].
    - destruct H as [M1 M2 M3 M4 M5 M6 M7 M8]. destruct (wdrop_spec t Ht _ _ _ _ M1 M2 M3 E) as [-> D]. split; [reflexivity|].
      destruct (Z.eqb_spec (m_len (v_map v)) 0); [subst s'|destruct D as (b & D & _)].
      + refine (ev_weaken t _ _ _ _ _ _ _ _ _ _ _ (ev_refl t s)); auto. intros a [].
      + exact (proj1 (unmap_view_ev t _ _ _ _ D)).
    - destruct H as (n & H). exact (ring_drop_ev a o n s r s' W H E).
  Qed.

  (** ** Conversion *)
  Lemma convert_thing v b s s' : map_ok t s v -> wwhole t (v_map v) (fun p l => win_protect t p l ReadWrite) s = (Ret tt, s') ->
    map_ok t s' v -> thing_ok t s' (converted v b).
  Proof.
    intros M H [N1 N2 N3 N4 N5 N6 N7 N8]. split; cbn; auto. intros _ p e Hp He.
    assert (C : 0 < m_ptr (v_map v) mod P + m_len (v_map v)).
    { unfold own_page, page_count in Hp. pose proof (npages_bounds t HP (m_ptr (v_map v) mod P + m_len (v_map v))).
      pose proof (Z.mod_pos_bound (m_ptr (v_map v)) P HP). destruct (Z.eq_dec (m_ptr (v_map v) mod P + m_len (v_map v)) 0); [nia|lia]. }
    pose proof (mo_back _ _ _ M C) as B. pose proof (whole_bounds (E:=error) q Hq _ _ _ _ _ _ B) as WB.
    change (size_bounds (E:=error) t P (m_ptr (v_map v)) (m_len (v_map v)) = Ret (P * first_page t (v_map v), P * page_count t (v_map v))) in WB.
    unfold wwhole, wbind, wout, size_page in H. rewrite WB in H. cbn [fst snd] in H.
    pose proof (page_count_pos q Hq _ _ _ _ _ _ B) as PC. change (page_count q (v_map v)) with (page_count t (v_map v)) in PC.
    assert (F0 : 0 <= first_page t (v_map v)).
    { unfold first_page. apply Z.div_pos; [|lia]. pose proof (bk_lo _ _ _ _ _ _ _ B). cbn in *. lia. }
    apply (win_protect_spec t Ht) in H as (_ & _ & PCh); [|nia].
    specialize (PCh p). assert (E1 : P * first_page t (v_map v) / P = first_page t (v_map v)) by (rewrite Z.mul_comm; apply Z.div_mul; lia).
    assert (E2 : (P * first_page t (v_map v) + P * page_count t (v_map v) - 1) / P = first_page t (v_map v) + page_count t (v_map v) - 1).
    { symmetry. apply Z.div_unique with (r := P - 1); lia. }
    rewrite E1, E2 in PCh. unfold own_page in Hp.
    rewrite (proj2 (Z.leb_le _ _)), (proj2 (Z.ltb_lt _ _)) in PCh by lia. cbn [andb] in PCh.
    destruct PCh as (e0 & _ & He'). assert (e = set_prot (win_prot ReadWrite) e0) by congruence. subst e. reflexivity.
  Qed.

  Lemma stepped_convert a g k v b r s' : prog_ok t g -> g_tab g k = Some (TMap v) ->
    wwhole t (v_map v) (fun p l => win_protect t p l ReadWrite) (g_s g) = (r, s') ->
    stepped a g (match r with Ret _ => g_put g s' k (Some (converted v b)) | _ => g_set g s' end) none none none.
  Proof.
    intros G Hk H. pose proof (po_thing _ _ G _ _ Hk) as M. cbn in M.
    assert (U : is_usize t (m_ptr (v_map v))).
    { destruct M as [M1 M2 M3 _ _ _ _ _]. unfold map_base in M2. pose proof (Z.div_mod (m_ptr (v_map v)) (t_alloc t) ltac:(lia)).
      pose proof (Z.mod_pos_bound (m_ptr (v_map v)) (t_alloc t) HG). split; lia. }
    pose proof (whole_keeps t Ht _ _ _ _ _ U (protect_call t Ht) H) as K.
    destruct r as [[]|e| | |]; try (exact (stepped_same a g s' G K)).
    pose proof (fun j x Hx => live_on none none none g s' j x G K Hx ltac:(intros ? [])) as LO.
    assert (SC : same_thing (TMap v) (converted v b)) by (cbn; auto 6).
    split; auto; try (intros; intros []; fail).
    - apply (prog_next none none none g s' _ G K). intros j x Hx. unfold put in Hx. destruct (Z.eqb_spec j k) as [->|N].
      + injection Hx as <-. exists (TMap v). split; [exact Hk|]. split; [exact SC|]. exact (convert_thing v b _ _ M H (LO _ _ Hk)).
      + exists x. split; [exact Hx|]. split; [apply same_thing_refl|exact (LO _ _ Hx)].
    - intros j x Hx _. cbn. unfold put. destruct (Z.eqb_spec j k) as [->|N].
      + exists (converted v b). split; [reflexivity|]. assert (x = TMap v) by congruence. subst x. exact SC.
      + exists x. split; [exact Hx|apply same_thing_refl].
    - intros c [].
    - intros j x Hx. left. cbn in Hx. unfold put in Hx. destruct (Z.eqb_spec j k) as [->|N]; [injection Hx as <-; exists (TMap v); auto|]. exists x. split; [exact Hx|apply same_thing_refl].
    - intros p [].
    - intros o [].
  Qed.

  (** ** Stores *)
  Lemma stepped_store k i b x g r w' : prog_ok t g -> g_tab g k = Some x -> 0 <= i < size_of x ->
    OsModel.store (E:=error) t (addr_of x + i) b (n_w (g_s g)) = (r, w') ->
    (r = Fault \/ r = Ret tt) /\ exists T Y, stepped (ASet k i b) g (g_set g (with_w (g_s g) w')) none T Y.
  Proof.
    intros G Hk Hi H. pose proof (po_thing _ _ G _ _ Hk) as Tk.
    assert (TP : thing_page t x ((addr_of x + i) / P) /\ forall e, w_vm (n_w (g_s g)) ((addr_of x + i) / P) = Some e -> p_obj e = obj_of x).
    { destruct x as [v|a o]; cbn -[Z.mul Z.add] in *.
      - assert (C : 0 < m_ptr (v_map v) mod P + m_len (v_map v)) by (pose proof (Z.mod_pos_bound (m_ptr (v_map v)) P HP); lia).
        pose proof (mo_back _ _ _ Tk C) as B. destruct (byte_page q Hq _ _ _ _ _ _ B i Hi) as (_ & OP & _).
        destruct (byte_entry q Hq _ _ _ _ _ _ B i Hi) as (e & He & Eo & _). change (t_page q) with P in *.
        split; [exact OP|]. intros e' He'. congruence.
      - destruct Tk as (n & R). pose proof (ro_len _ _ _ _ _ R) as L. rewrite L in *. pose proof (ro_n _ _ _ _ _ R).
        replace (P * n) with (n * P) in * by lia. rewrite Z.div_mul by lia.
        destruct (page_split t Ht (ra_ptr a) i (ro_align _ _ _ _ _ R)) as [E1 E2]. rewrite E1.
        assert (Hk' : 0 <= i / P < 2 * n) by (split; [apply Z.div_pos; lia|apply Z.div_lt_upper_bound; lia]).
        split; [lia|]. destruct (ro_page _ _ _ _ _ R _ Hk') as (e & He & Eo & _). intros e' He'. congruence. }
    destruct TP as [TP EO]. apply (store_ev t) in H as [[-> H]|(-> & e & He & _ & H)].
    - split; [auto|]. exists none, none. apply stepped_same; [exact G|]. rewrite H. apply ev_wq, with_w_quiet. split; reflexivity.
    - split; [auto|].
      assert (K : exists T Y : Z -> Prop, evolves t none T Y (g_s g) (with_w (g_s g) w') /\
        (forall p, T p -> p = (addr_of x + i) / P) /\ forall o, Y o -> o = obj_of x).
      { destruct (p_shared e).
        - exists none, (fun o => o = p_obj e). split; [exact H|]. split; [intros p []|]. intros o ->. exact (EO e He).
        - exists (fun p => p = (addr_of x + i) / P), none. split; [exact H|]. split; [auto|intros o []]. }
      destruct K as (T & Y & K & KT & KY). exists T, Y. split; auto.
      + exact (prog_same T Y g _ G K).
      + intros j y Hy _. exists y. split; [exact Hy|apply same_thing_refl].
      + intros j y p Hy Nt Tp. rewrite (KT p Tp). cbn in Nt. exact (pages_apart g k x j y _ G Hk Hy Nt TP).
      + intros j y Hy Py Nt Yo. cbn in Nt. apply KY in Yo. refine (proj2 (po_own _ _ G _ _ Hy Py) _ _ Hk _ _); [|congruence]. congruence.
      + intros c [].
      + intros j y Hy. left. exists y. split; [exact Hy|apply same_thing_refl].
      + intros p Tp. rewrite (KT p Tp). exists k, x. split; [cbn; auto|auto].
      + intros o Yo. rewrite (KY o Yo). exists k, x. split; [cbn; auto|auto].
  Qed.

  (** ** The step *)
  Lemma step_spec a g : act_ok t a -> prog_ok t g -> exists X T Y, stepped a g (snd (act_step t a g)) X T Y.
  Proof.
    intros Ha G. pose proof G as [W So Ks Th Ap Ow].
    assert (WI : keeps t (g_s g) (with_w (g_s g) (n_w (g_s g)))) by (apply ev_wq, with_w_quiet; split; reflexivity).
    assert (PL : forall (y : out error unit) s', keeps t (g_s g) s' -> exists X T Y, stepped a g (snd (plain g (y, s'))) X T Y).
    { intros y s' K. exists none, none, none. destruct y; apply stepped_same; auto. }
    assert (Wm : forall k f, (forall v, g_tab g k = Some (TMap v) -> exists X T Y, stepped a g (snd (f v)) X T Y) ->
      exists X T Y, stepped a g (snd (with_map g k f)) X T Y).
    { intros k f H. unfold with_map. destruct (g_tab g k) as [[v|r o]|]; [auto| |]; exists none, none, none; apply stepped_id, G. }
    assert (Wu : forall k f, (forall v, g_tab g k = Some (TMap v) -> exists X T Y, stepped a g (snd (f v)) X T Y) ->
      exists X T Y, stepped a g (snd (with_mut g k f)) X T Y).
    { intros k f H. apply Wm. intros v Hv. destruct (v_mut v); [auto|]. exists none, none, none; apply stepped_id, G. }
    assert (Us : forall k v, g_tab g k = Some (TMap v) -> is_usize t (m_ptr (v_map v))).
    { intros k v Hv. destruct (Th _ _ Hv) as [M1 M2 M3 _ _ _ _ _]. unfold map_base in M2. pose proof (Z.div_mod (m_ptr (v_map v)) (t_alloc t) ltac:(lia)).
      pose proof (Z.mod_pos_bound (m_ptr (v_map v)) (t_alloc t) HG). split; lia. }
    assert (Wh : forall k f, page_call t f -> forall v, g_tab g k = Some (TMap v) ->
      exists X T Y, stepped a g (snd (plain g (wwhole t (v_map v) f (g_s g)))) X T Y).
    { intros k f F v Hv. destruct (wwhole t (v_map v) f (g_s g)) as [y s'] eqn:E. apply PL. exact (whole_keeps t Ht _ _ _ _ _ (Us _ _ Hv) F E). }
    assert (Wr : forall k f op off len, page_call t f -> forall v, g_tab g k = Some (TMap v) ->
      exists X T Y, stepped a g (snd (plain g (wranged t op (v_map v) off len f (g_s g)))) X T Y).
    { intros k f op off len F v Hv. destruct (wranged t op (v_map v) off len f (g_s g)) as [y s'] eqn:E. apply PL. exact (ranged_keeps t Ht _ _ _ _ _ _ _ _ F E). }
    destruct a; cbn [act_step act_ok] in *.
    - destruct (wopen_if t o path (g_s g)) as [r s'] eqn:E. destruct (open_if_thing mut _ _ _ _ _ W So Ha E) as [K H].
      exists none, none, none. destruct r as [[[m|] fd]|e| | |]; try contradiction; cbn [finish snd fst]; try (apply stepped_same; auto; fail).
      cbv zeta in H. destruct H as (H1 & H2 & H3). apply stepped_add; auto.
    - destruct (wmap_if t o fd (g_s g)) as [r s'] eqn:E. destruct (map_if_thing mut _ _ _ _ _ W So Ha E) as [K H].
      exists none, none, none. destruct r as [[m|]|e| | |]; try contradiction; cbn [finish snd fst]; try (apply stepped_same; auto; fail).
      cbv zeta in H. destruct H as (H1 & H2 & H3). apply stepped_add; auto.
    - destruct Ha as [Ha1 Ha2]. destruct (walloc t o (g_s g)) as [r s'] eqn:E. destruct (alloc_thing mut _ _ _ _ W So Ha1 Ha2 E) as [K H].
      exists none, none, none. destruct r as [m|e| | |]; try contradiction; cbn [finish snd fst]; try (apply stepped_same; auto; fail).
      cbv zeta in H. destruct H as (H1 & H2 & H3). apply stepped_add; auto.
    - exists none, none, none. apply stepped_same; [exact G|]. exact (sys_close_keeps t fd (g_s g)).
    - apply Wm. intros v Hv. destruct (v_mut v); [exists none, none, none; apply stepped_id, G|].
      unfold winto_map_mut, wconvert. destruct (wwhole t (v_map v) _ (g_s g)) as [r s'] eqn:E.
      exists none, none, none. pose proof (stepped_convert (AToMut k) g k v true r s' G Hv E) as H. destruct r as [[]|e| | |]; exact H.
    - apply Wu. intros v Hv.
      unfold winto_map, wconvert. destruct (wwhole t (v_map v) _ (g_s g)) as [r s'] eqn:E.
      exists none, none, none. pose proof (stepped_convert (AToMap k) g k v false r s' G Hv E) as H. destruct r as [[]|e| | |]; exact H.
    - exists none, none, none. destruct (g_tab g k) as [[v|r o]|]; [| |apply stepped_id, G].
      + assert (E : snd (wget t (v_map v) i (g_s g)) = with_w (g_s g) (n_w (g_s g))) by (unfold wget, lift, map_get; destruct (_ && _); reflexivity).
        unfold reads. destruct (wget t (v_map v) i (g_s g)) as [y s']. cbn in E. subst s'. destruct y; apply stepped_same; auto.
      + assert (E : snd (wring_get t r i (g_s g)) = g_s g) by (unfold wring_get; destruct (_ && _); reflexivity).
        unfold reads. destruct (wring_get t r i (g_s g)) as [y s']. cbn in E. subst s'. pose proof (ev_refl t (g_s g)). destruct y; apply stepped_same; auto.
    - destruct (g_tab g k) as [x|] eqn:Hk; [|exists none, none, none; apply stepped_id, G].
      assert (Out : forall y : out error unit, exists X T Y, stepped (ASet k i b) g (snd (plain g (y, with_w (g_s g) (n_w (g_s g))))) X T Y) by (intros y; apply PL, WI).
      assert (In : 0 <= i < size_of x -> exists X T Y, stepped (ASet k i b) g
          (snd (plain g (lift (OsModel.store (E:=error) t (addr_of x + i) b) (g_s g)))) X T Y).
      { intros Hi. unfold lift. destruct (OsModel.store t (addr_of x + i) b (n_w (g_s g))) as [r w'] eqn:E.
        destruct (stepped_store k i b x g r w' G Hk Hi E) as (Hr & T & Y & H). exists none, T, Y. destruct Hr as [-> | ->]; exact H. }
      destruct x as [v|r o].
      + destruct (v_mut v); [|exists none, none, none; apply stepped_id, G]. unfold wset, map_set, lift.
        destruct (Z.leb_spec 0 i); [destruct (Z.ltb_spec i (m_len (v_map v)))|]; cbn [andb]; [|apply Out..].
        assert (EP : ptr_add t (m_ptr (v_map v)) i = m_ptr (v_map v) + i).
        { destruct (Th _ _ Hk) as [M1 M2 M3 _ _ _ _ _]. destruct (Us _ _ Hk). unfold ptr_add, as_usize. apply Z.mod_small. lia. }
        rewrite EP. apply In. cbn. lia.
      + unfold wring_set, lift. destruct (Z.leb_spec 0 i); [destruct (Z.ltb_spec i (2 * ra_len r))|]; cbn [andb]; [|apply Out..].
        apply In. cbn -[Z.mul]. lia.
    - apply Wu. exact (Wh k _ (flush_call t Ht fd mode)).
    - apply Wu. exact (Wr k _ _ _ _ (flush_call t Ht fd mode)).
    - apply Wm. exact (Wh k _ (advise_call t adv)).
    - apply Wm. exact (Wr k _ _ _ _ (advise_call t adv)).
    - apply Wm. exact (Wh k _ (lock_call t Ht)).
    - apply Wm. exact (Wr k _ _ _ _ (lock_call t Ht)).
    - apply Wm. exact (Wh k _ (unlock_call t Ht)).
    - apply Wm. exact (Wr k _ _ _ _ (unlock_call t Ht)).
    - destruct (win_ring_new t hint (g_s g)) as [r s'] eqn:E. destruct (ring_thing _ _ _ _ W Ha E) as [K H].
      exists none, none, none. destruct r as [m|e| | |]; try contradiction; cbn [finish snd fst]; try (apply stepped_same; auto; fail).
      cbv zeta in H. destruct H as (H1 & H2 & H3). apply stepped_add; auto.
    - destruct (g_tab g k) as [x|] eqn:Hk; [|exists none, none, none; apply stepped_id, G].
      destruct (match x with TMap v => wdrop t (v_map v) (g_s g) | TRing r _ => win_ring_drop t r (g_s g) end) as [r s'] eqn:E.
      destruct (drop_thing x _ _ _ W (Th _ _ Hk) E) as [-> K]. cbn [finish snd fst].
      exists (bases_of t x), none, none. split; cbn; auto.
      + apply (prog_next (bases_of t x) none none g s' _ G K). intros j y Hy. unfold put in Hy. destruct (Z.eqb_spec j k) as [->|N]; [discriminate Hy|].
        exists y. split; [exact Hy|]. split; [apply same_thing_refl|]. apply (live_on (bases_of t x) none none g s' j y G K Hy).
        intros b. exact (Ap _ _ _ _ b Hk Hy (not_eq_sym N)).
      + intros j y b Hy N Bb. exact (Ap _ _ _ _ b Hk Hy N Bb).
      + intros j y Hy N. exists y. rewrite put_other by congruence. split; [exact Hy|apply same_thing_refl].
      + intros b Hb. exists k, x. auto.
      + intros j y Hy. left. exists y. unfold put in Hy. destruct (j =? k); [discriminate Hy|]. split; [exact Hy|apply same_thing_refl].
      + intros p [].
      + intros o [].
    - exists none, none, none. apply stepped_same; [exact G|]. exact (wothers_keeps t e (g_s g) Ha).
  Qed.
End Hist.
