(** Calls in progress on Windows: what holds between any two system calls. *)
From Coq Require Import Lia.
From Verif Require Import Base Spec ErrorModel SizeModel OsModel MapModel MapSpec RingMapModel RingMapSpec SizeProofs OsProofs
  MapProofs MapCreate MapOps MirrorProofs RingMapClaims MemRingModel ProcModel ProcProofs
  WinModel WinSpec WinProofs WinClaims WinCalls WinMapModel WinMapSpec WinSpace WinKeep WinMapProofs WinAlloc WinThings WinHist WinLeak WinMapClaims
  WinProcModel WinProcSpec WinProcProofs WinLedgerSpec WinLedger WinThreadModel WinThreadSpec.

(** What somebody has: an object, and a thing once it is mapped. *)
Record item := { i_obj : Z; i_priv : bool; i_thing : option thing }.

(** One half of a ring: a map of the first [len] bytes of its object. *)
Definition half (pg len ob : Z) : thing :=
  TMap {| v_map := {| m_ptr := pg; m_len := len |}; v_mut := true; v_obj := ob; v_off := 0; v_prot := ReadWrite; v_anon := true; v_w := true |}.
Definition wpiece (t : target) (pd : wpend) : option item :=
  match pd with
  | VView _ _ _ _ _ ob _ _ _ => Some {| i_obj := ob; i_priv := false; i_thing := None |}
  | VDone mut _ o _ _ ob d len r => Some {| i_obj := ob; i_priv := false;
      i_thing := match r with Ret ptr => Some (made_file mut o ob {| m_ptr := ptr_add t ptr d; m_len := len |}) | _ => None end |}
  | NView _ _ _ ob _ _ _ => Some {| i_obj := ob; i_priv := true; i_thing := None |}
  | NDone mut o _ ob off len r => Some {| i_obj := ob; i_priv := true;
      i_thing := match r with Ret ptr => Some (made_anon t mut o ob {| m_ptr := ptr_add t ptr off; m_len := len |}) | _ => None end |}
  | KReserve _ _ _ _ ob _ | KRelease _ _ _ _ ob _ _ | KFirst _ _ _ _ ob _ _ => Some {| i_obj := ob; i_priv := true; i_thing := None |}
  | KSecond _ len _ _ ob _ pg | KUndo _ len _ _ ob _ pg _ => Some {| i_obj := ob; i_priv := true; i_thing := Some (half pg len ob) |}
  | KDone _ len _ ob r => Some {| i_obj := ob; i_priv := true;
      i_thing := match r with Ret pg => Some (TRing {| ra_ptr := pg; ra_len := len |} ob) | _ => None end |}
  | DSecond r ob => Some {| i_obj := ob; i_priv := true; i_thing := Some (TRing r ob) |}
  | DFirst r ob => Some {| i_obj := ob; i_priv := true; i_thing := Some (half (ra_ptr r) (ra_len r) ob) |}
  | _ => None
  end.
Definition tab_item (x : thing) : item := {| i_obj := obj_of x; i_priv := private_thing x; i_thing := Some x |}.
Definition pitem (t : target) (o : option wpend) : option item := match o with Some pd => wpiece t pd | None => None end.
Definition fam (t : target) (g : prog) (pool : Z -> option wpend) (z : wowner) : option item :=
  match z with
  | WThing k => option_map tab_item (g_tab g k)
  | WThread tid => pitem t (pool tid)
  end.

Record fam_ok (t : target) (s : win) (F : wowner -> option item) : Prop := {
  fo_wf : wf (n_w s);
  fo_space : space_ok t s;
  fo_thing : forall z it x, F z = Some it -> i_thing it = Some x -> thing_ok t s x /\ obj_of x = i_obj it /\ private_thing x = i_priv it;
  fo_apart : forall z y it jt x x' a, z <> y -> F z = Some it -> F y = Some jt -> i_thing it = Some x -> i_thing jt = Some x' ->
     bases_of t x a -> ~ bases_of t x' a;
  fo_obj : forall z it, F z = Some it -> i_obj it < w_next (n_w s);
  fo_own : forall z it, F z = Some it -> i_priv it = true -> ~ named (n_w s) (i_obj it) /\
     forall y jt, z <> y -> F y = Some jt -> i_obj jt <> i_obj it
}.

(** What a step makes of the actor's own item. *)
Definition item_next (t : target) (s s' : win) (old new : option item) : Prop := forall it, new = Some it ->
  (forall x, i_thing it = Some x -> thing_ok t s' x /\ obj_of x = i_obj it /\ private_thing x = i_priv it /\
     forall b, bases_of t x b -> n_view s b = None \/ exists jt y, old = Some jt /\ i_thing jt = Some y /\ bases_of t y b) /\
  i_obj it < w_next (n_w s') /\
  ((exists jt, old = Some jt /\ i_obj jt = i_obj it /\ i_priv jt = i_priv it) \/
   (if i_priv it then w_next (n_w s) <= i_obj it /\ ~ named (n_w s') (i_obj it) else named (n_w s') (i_obj it))).

Section Inv.
  Variable t : target.
  Hypothesis Ht : good_target t.
  Notation P := (t_page t).
  Notation G := (t_alloc t).
  Let HP : 0 < P.
  Proof. exact (pow2_pos _ (proj1 (proj2 Ht))). Qed.
  Let HG : 0 < G.
  Proof. exact (pow2_pos _ (proj1 (proj2 (proj2 Ht)))). Qed.

  Definition owner_dec (a b : wowner) : {a = b} + {a <> b}.
  Proof. decide equality; apply Z.eq_dec. Defined.

  Lemma fam_move (X T Y : Z -> Prop) s s' F F' z0 : fam_ok t s F -> evolves t X T Y s s' -> (forall z, z <> z0 -> F' z = F z) ->
    (forall b, X b -> exists it y, F z0 = Some it /\ i_thing it = Some y /\ bases_of t y b) ->
    item_next t s s' (F z0) (F' z0) -> fam_ok t s' F'.
  Proof.
    intros [W So Th Ap Ob Ow] E Oth HX Nx.
    assert (HXo : forall z it x b, z <> z0 -> F z = Some it -> i_thing it = Some x -> X b -> ~ bases_of t x b).
    { intros z it x b N Hz Hx Xb Bb. destruct (HX b Xb) as (jt & y & H0 & Hy & By). exact (Ap _ _ _ _ _ _ b N Hz H0 Hx Hy Bb By). }
    assert (Nn : forall z it, F z = Some it -> i_priv it = true -> ~ named (n_w s') (i_obj it)).
    { intros z it Hz Hp Nm. destruct (Ow z it Hz Hp) as [N0 _]. apply (ev_named _ _ _ _ _ _ E) in Nm as [Nm|Nm]; [contradiction|].
      pose proof (Ob z it Hz). lia. }
    split.
    - exact (ev_wf _ _ _ _ _ _ E W).
    - exact (ev_space _ _ _ _ _ _ E So).
    - intros z it x Hz Hx. destruct (owner_dec z z0) as [->|N].
      + destruct (Nx it Hz) as (H & _). destruct (H x Hx) as (H1 & H2 & H3 & _). auto.
      + rewrite (Oth z N) in Hz. destruct (Th z it x Hz Hx) as (H1 & H2 & H3). split; [|auto].
        apply (thing_ev t Ht X T Y s s' x So E); [intros b Xb; exact (HXo z it x b N Hz Hx Xb)| |exact H1].
        intros Px. rewrite H2. apply (Ow z it Hz). congruence.
    - assert (K : forall z it jt x x' a, z <> z0 -> F z = Some it -> F' z0 = Some jt -> i_thing it = Some x -> i_thing jt = Some x' ->
        bases_of t x a -> bases_of t x' a -> False).
      { intros z it jt x x' a N Hz H0 Hx Hx' Ba Bb. destruct (Nx jt H0) as (H & _). destruct (H x' Hx') as (_ & _ & _ & Fr).
        destruct (Fr a Bb) as [V|(kt & y & Hk & Hy & By)].
        - destruct (bases_view t s x a (proj1 (Th _ _ _ Hz Hx)) Ba) as (n & V'). congruence.
        - exact (Ap _ _ _ _ _ _ a N Hz Hk Hx Hy Ba By). }
      intros z y it jt x x' a N Hz Hy Hx Hx' Ba Bb. destruct (owner_dec z z0) as [->|Nz].
      + rewrite (Oth y) in Hy by congruence. exact (K y jt it x' x a ltac:(congruence) Hy Hz Hx' Hx Bb Ba).
      + rewrite (Oth z Nz) in Hz. destruct (owner_dec y z0) as [->|Ny]; [exact (K z it jt x x' a Nz Hz Hy Hx Hx' Ba Bb)|].
        rewrite (Oth y Ny) in Hy. exact (Ap _ _ _ _ _ _ a N Hz Hy Hx Hx' Ba Bb).
    - intros z it Hz. destruct (owner_dec z z0) as [->|N]; [apply (Nx it Hz)|]. rewrite (Oth z N) in Hz.
      pose proof (Ob z it Hz). pose proof (ev_next _ _ _ _ _ _ E). lia.
    - intros z it Hz Hp. destruct (owner_dec z z0) as [->|N].
      + destruct (Nx it Hz) as (_ & _ & [(jt & Hj & Eo & Ep)|H]).
        * destruct (Ow z0 jt Hj ltac:(congruence)) as [O1 O2]. rewrite <- Eo. split; [apply (Nn z0 jt Hj); congruence|].
          intros y kt N Hy. rewrite (Oth y) in Hy by congruence. exact (O2 y kt N Hy).
        * rewrite Hp in H. split; [apply H|]. intros y kt N Hy. rewrite (Oth y) in Hy by congruence. pose proof (Ob y kt Hy). lia.
      + rewrite (Oth z N) in Hz. split; [exact (Nn z it Hz Hp)|]. destruct (Ow z it Hz Hp) as [O1 O2].
        intros y kt Ny Hy. destruct (owner_dec y z0) as [->|Nz].
        * destruct (Nx kt Hy) as (_ & _ & [(jt & Hj & Eo & Ep)|H]); [rewrite <- Eo; exact (O2 z0 jt Ny Hj)|].
          destruct (i_priv kt); [pose proof (Ob z it Hz); lia|]. intros E0. rewrite E0 in H. exact (Nn z it Hz Hp H).
        * rewrite (Oth y Nz) in Hy. exact (O2 y kt Ny Hy).
  Qed.

  (** What is had changes hands. *)
  Lemma fam_swap s F F' (f : wowner -> wowner) : fam_ok t s F -> (forall z it, F' z = Some it -> F (f z) = Some it) ->
    (forall z y it jt, F' z = Some it -> F' y = Some jt -> f z = f y -> z = y) -> fam_ok t s F'.
  Proof.
    intros [W So Th Ap Ob Ow] H I. split; auto.
    - intros z it x Hz. exact (Th _ _ _ (H _ _ Hz)).
    - intros z y it jt x x' a N Hz Hy. apply (Ap (f z) (f y) it jt x x' a); auto. intros E. apply N. exact (I _ _ _ _ Hz Hy E).
    - intros z it Hz. exact (Ob _ _ (H _ _ Hz)).
    - intros z it Hz Hp. destruct (Ow _ _ (H _ _ Hz) Hp) as [O1 O2]. split; [exact O1|]. intros y jt N Hy.
      apply (O2 (f y) jt); [|exact (H _ _ Hy)]. intros E. apply N. exact (I _ _ _ _ Hz Hy E).
  Qed.

  (** The program's part. *)
  Lemma fam_prog g pool : fam_ok t (g_s g) (fam t g pool) -> (forall k x, g_tab g k = Some x -> k < g_cnt g) -> prog_ok t g.
  Proof.
    intros [W So Th Ap Ob Ow] Ks.
    assert (E : forall k x, g_tab g k = Some x -> fam t g pool (WThing k) = Some (tab_item x)) by (intros k x Hk; cbn; rewrite Hk; reflexivity).
    split; auto.
    - intros k x Hk. exact (proj1 (Th _ _ x (E k x Hk) eq_refl)).
    - intros k x j y a Hk Hj N. apply (Ap (WThing k) (WThing j) (tab_item x) (tab_item y) x y a); [congruence|exact (E k x Hk)|exact (E j y Hj)|reflexivity|reflexivity].
    - intros k x Hk Hp. destruct (Ow _ _ (E k x Hk) Hp) as [O1 O2]. split; [exact O1|]. intros j y Hj N.
      apply (O2 (WThing j) (tab_item y)); [congruence|exact (E j y Hj)].
  Qed.

  (** ** What a stage relies on *)
  Definition rw_section (p : protect) : bool := match fst (protect_pair p) with PageReadWrite => true | _ => false end.
  Definition kfacts (s : win) (len full h ob : Z) : Prop :=
    is_usize t len /\ len mod G = 0 /\ len <> 0 /\ is_usize t full /\
    (exists c, n_sec s h = Some c /\ sc_obj c = ob /\ sc_w c = true /\ sc_size c <= o_size (w_obj (n_w s) ob)) /\
    (forall i, o_data (w_obj (n_w s) ob) i = 0).
  Definition stage_ok (s0 s : win) (pd : wpend) : Prop :=
    match pd with
    | VOpen _ o _ | VStat _ _ o _ => options_ok t o
    | VCut _ _ o _ flen | VSize _ _ o _ flen | VCreate _ _ o _ flen => options_ok t o /\ is_usize t flen
    | VView _ _ o _ h ob mapoff d len => (exists c, n_sec s h = Some c /\ sc_obj c = ob /\ sc_w c = rw_section (op_protect o)) /\
        is_usize t (op_offset o) /\ mapoff = op_offset o - op_offset o mod G /\ d = op_offset o mod G /\ 0 <= len /\ len + op_offset o < 2 ^ t_bits t
    | VDone _ _ _ _ h _ _ _ _ => exists c, n_sec s h = Some c
    | NDone _ _ h ob _ _ r => (exists c, n_sec s h = Some c) /\ match r with Ret _ => forall i, o_data (w_obj (n_w s) ob) i = 0 | _ => True end
    | VClose _ _ => True
    | NCreate _ o off len total => off = op_offset o mod P /\ total = off + len /\ 0 <= len /\ total < 2 ^ t_bits t
    | NView _ o h ob off len total => off = op_offset o mod P /\ total = off + len /\ 0 <= len /\ total < 2 ^ t_bits t /\ total <> 0 /\
        (exists c, n_sec s h = Some c /\ sc_obj c = ob /\ sc_w c = rw_section (op_protect o)) /\ total <= o_size (w_obj (n_w s) ob) /\
        forall i, o_data (w_obj (n_w s) ob) i = 0
    | KCreate _ len full => is_usize t len /\ len mod G = 0 /\ is_usize t full /\ (len = 0 -> full = 0)
    | KReserve _ len full h ob _ => kfacts s len full h ob
    | KRelease _ len full h ob _ pg => kfacts s len full h ob /\ P <= pg /\ pg mod G = 0 /\ n_resv s0 pg = None /\ n_resv s pg = Some (npages t full) /\ 0 < full
    | KFirst _ len full h ob _ pg => kfacts s len full h ob /\ P <= pg
    | KSecond _ len full h ob _ pg | KUndo _ len full h ob _ pg _ => kfacts s len full h ob /\ n_view s (map_base t {| m_ptr := pg; m_len := len |}) = Some (npages t len) /\ pg mod G = 0
    | KDone _ _ h ob r => (exists c, n_sec s h = Some c) /\ match r with Ret _ => forall i, o_data (w_obj (n_w s) ob) i = 0 | _ => True end
    | DSecond _ _ => True
    | DFirst r _ => map_base t {| m_ptr := ra_ptr r; m_len := ra_len r |} = ra_ptr r
    end.
  Definition wpd_resv (pd : wpend) : option Z := match pd with KRelease _ _ _ _ _ _ pg => Some pg | _ => None end.

  Lemma handle_sec s0 s pd h : stage_ok s0 s pd -> wpd_handle pd = Some h -> n_sec s h <> None.
  Proof.
    destruct pd; cbn; intros H E; try discriminate E; injection E as <-.
    - destruct H as ((c & -> & _) & _). discriminate.
    - destruct H as (c & ->). discriminate.
    - destruct H as (_ & _ & _ & _ & _ & (c & -> & _) & _). discriminate.
    - destruct H as ((c & ->) & _). discriminate.
    - destruct H as (_ & _ & _ & _ & (c & -> & _) & _). discriminate.
    - destruct H as ((_ & _ & _ & _ & (c & -> & _) & _) & _). discriminate.
    - destruct H as ((_ & _ & _ & _ & (c & -> & _) & _) & _). discriminate.
    - destruct H as ((_ & _ & _ & _ & (c & -> & _) & _) & _). discriminate.
    - destruct H as ((_ & _ & _ & _ & (c & -> & _) & _) & _). discriminate.
    - destruct H as ((c & ->) & _). discriminate.
  Qed.
  Lemma resv_left s0 s pd a : stage_ok s0 s pd -> wpd_resv pd = Some a -> exists n, left_resv s0 s a n.
  Proof.
    destruct pd; cbn; intros H E; try discriminate E. injection E as <-. destruct H as (_ & _ & _ & H1 & H2 & _). exists (npages t full). split; assumption.
  Qed.

  (** A stage lives on when its section, object and reservation do. *)
  Lemma stage_keeps s0 s s' pd : stage_ok s0 s pd ->
    (forall h, wpd_handle pd = Some h -> n_sec s' h = n_sec s h) ->
    (forall it, wpiece t pd = Some it -> i_priv it = true -> o_size (w_obj (n_w s') (i_obj it)) = o_size (w_obj (n_w s) (i_obj it)) /\
       forall i, o_data (w_obj (n_w s') (i_obj it)) i = o_data (w_obj (n_w s) (i_obj it)) i) ->
    (forall it x b n, wpiece t pd = Some it -> i_thing it = Some x -> bases_of t x b -> n_view s b = Some n -> n_view s' b = Some n) ->
    (forall a n, wpd_resv pd = Some a -> n_resv s a = Some n -> n_resv s' a = Some n) -> stage_ok s0 s' pd.
  Proof.
    intros H Hs Ho Hv Hr.
    assert (KF : forall len full h ob, wpd_handle pd = Some h -> (exists it, wpiece t pd = Some it /\ i_priv it = true /\ i_obj it = ob) ->
      kfacts s len full h ob -> kfacts s' len full h ob).
    { intros len full h ob Eh (it & Ei & Ep & <-) (K1 & K2 & K3 & K4 & (c & K5 & K6) & K7). destruct (Ho it Ei Ep) as [Es Ed].
      split; [exact K1|]. split; [exact K2|]. split; [exact K3|]. split; [exact K4|]. split; [|intros i; rewrite Ed; apply K7].
      exists c. rewrite (Hs h Eh), Es. auto. }
    destruct pd; cbn [stage_ok wpd_handle wpiece wpd_resv] in *; auto.
    - rewrite (Hs _ eq_refl). exact H.
    - rewrite (Hs _ eq_refl). exact H.
    - rewrite (Hs _ eq_refl). destruct (Ho _ eq_refl eq_refl) as [Es Ed]. cbn in Es, Ed. rewrite Es.
      destruct H as (H1 & H2 & H3 & H4 & H5 & H6 & H7 & H8). do 7 (split; [assumption|]). intros i. rewrite Ed. apply H8.
    - rewrite (Hs _ eq_refl). destruct H as [H1 H2]. split; [exact H1|]. destruct r; auto. destruct (Ho _ eq_refl eq_refl) as [_ Ed]. cbn in Ed.
      intros i. rewrite Ed. apply H2.
    - apply KF; auto. eexists; split; [reflexivity|auto].
    - destruct H as (H1 & H2 & H3 & H4 & H5 & H6). split; [apply KF; auto; eexists; split; [reflexivity|auto]|]. auto 6.
    - destruct H as (H1 & H2). split; [apply KF; auto; eexists; split; [reflexivity|auto]|]. auto.
    - destruct H as (H1 & H2 & H3). split; [apply KF; auto; eexists; split; [reflexivity|auto]|]. split; [|exact H3]. exact (Hv _ _ _ _ eq_refl eq_refl eq_refl H2).
    - destruct H as (H1 & H2 & H3). split; [apply KF; auto; eexists; split; [reflexivity|auto]|]. split; [|exact H3]. exact (Hv _ _ _ _ eq_refl eq_refl eq_refl H2).
    - rewrite (Hs _ eq_refl). destruct H as [H1 H2]. split; [exact H1|]. destruct r; auto. destruct (Ho _ eq_refl eq_refl) as [_ Ed]. cbn in Ed.
      intros i. rewrite Ed. apply H2.
  Qed.

  (** ** The invariant *)
  Record gok (s0 : win) (g : prog) (pool : Z -> option wpend) : Prop := {
    gk_fam : fam_ok t (g_s g) (fam t g pool);
    gk_keys : forall k x, g_tab g k = Some x -> k < g_cnt g;
    gk_tiled : tiled t s0 (g_s g);
    gk_stage : forall tid pd, pool tid = Some pd -> stage_ok s0 (g_s g) pd;
    gk_hand : forall i j pd pe h, i <> j -> pool i = Some pd -> pool j = Some pe -> wpd_handle pd = Some h -> wpd_handle pe <> Some h;
    gk_new : forall tid pd h, pool tid = Some pd -> wpd_handle pd = Some h -> n_sec s0 h = None;
    gk_sec : forall h, (exists tid pd, pool tid = Some pd /\ wpd_handle pd = Some h) \/ n_sec (g_s g) h = n_sec s0 h;
    gk_resv : forall i j pd pe a, i <> j -> pool i = Some pd -> pool j = Some pe -> wpd_resv pd = Some a -> wpd_resv pe <> Some a
  }.
  Record wtok (s0 : win) (s : wtsys) : Prop := {
    tk_g : gok s0 (wp_g (wt_p s)) (wt_pool s);
    tk_ring : forall k h, wp_ring (wt_p s) k = Some h -> h_fit t h /\ exists o, g_tab (wp_g (wt_p s)) k = Some (TRing (h_alloc h) o)
  }.
  Lemma gok_prog s0 g pool : gok s0 g pool -> prog_ok t g.
  Proof. intros H. exact (fam_prog g pool (gk_fam _ _ _ H) (gk_keys _ _ _ H)). Qed.
  Lemma wtok_wpok s0 s : wtok s0 s -> wpok t (wt_p s).
  Proof. intros H. split; [exact (gok_prog _ _ _ (tk_g _ _ H))|exact (tk_ring _ _ H)]. Qed.


  (** ** One system call *)
  Lemma alloc_keeps len s r s' : virtual_alloc t len s = (r, s') -> keeps t s s'.
  Proof.
    intros E1. apply alloc_spec in E1 as (L1 & R1 & S1 & E1). destruct r as [pg|e| | |]; try contradiction; [|apply ev_wq, E1].
    destruct E1 as (A1 & A2 & A3 & A4 & A0 & A5 & A6 & A7 & A8 & A9 & A10).
    assert (OZ : forall o, w_next (n_w s) <= o -> w_obj (n_w s') o = w_obj (n_w s) o \/ 0 <= o_size (w_obj (n_w s') o) < 2 ^ 64).
    { intros o _. rewrite A10. unfold put. destruct (o =? w_next (n_w s)); [right; cbn; lia|auto]. }
    destruct R1 as [[Q1 Q2 Q3 Q4 Q5] Q6]. apply ev_steady; auto.
    - intros p e He. exists e. split; [|split; [apply kept_refl|auto]]. rewrite A7; [exact He|]. intros I. rewrite (A6 p I) in He. discriminate.
    - intros a. rewrite A4. reflexivity.
    - intros o Ho _. rewrite Q5 by exact Ho. reflexivity.
    - intros o Ho _. right. rewrite Q5 by exact Ho. reflexivity.
    - intros o Ho. left. exact (named_eq _ _ Q2 Q3 _ Ho).
    - intros W. apply (wf_change _ _ W); auto.
      + intros p e' He. destruct (in_pages_cases (pg / P) (npages t len) p) as [[_ I]|[_ I]].
        * right. destruct (A8 p I) as (e & E & Eo). assert (e = e') by congruence. subst e'. lia.
        * left. rewrite A7 in He by exact I. eauto.
      + intros fd f. rewrite Q2. auto.
      + intros q o. rewrite Q3. auto.
      + intros o. destruct (Z.lt_ge_cases o (w_next (n_w s))) as [L|L]; [rewrite Q5 by exact L; auto|].
        destruct (OZ o L) as [-> |X]; auto.
  Qed.
  (** Releasing a reservation takes no page of a view. *)
  Lemma free_keeps s0 a s r s' : tiled t s0 s -> n_resv s0 a = None -> virtual_free t a s = (r, s') -> keeps t s s'.
  Proof.
    intros T O E. apply free_spec in E as (L & R & S1 & E). destruct r as [u|e| | |]; try contradiction; [|apply ev_wq, E].
    destruct E as (n & B1 & B2 & B3 & B4 & B5 & B6). destruct R as [[Q1 Q2 Q3 Q4 Q5] Q6].
    assert (Nv : forall b m p, n_view s b = Some m -> in_view t b m p -> w_vm (n_w s') p = w_vm (n_w s) p).
    { intros b m p Vb Ib. rewrite B4. destruct (in_pages_cases (a / P) n p) as [[-> I]|[-> I]]; [exfalso|reflexivity].
      assert (Lr : region s0 s a n) by (right; split; assumption).
      pose proof (td_apart _ _ _ T b m a n p (or_introl Vb) Lr Ib I) as ->. rewrite (td_one _ _ _ T _ _ Vb) in B1. discriminate. }
    split; rewrite ?B3, ?B5, ?B6; auto; try lia.
    - intros b m p e Vb Ib He. right. exists e. rewrite (Nv b m p Vb Ib). split; [exact He|]. split; [apply kept_refl|auto].
    - intros o Ho. left. exact (named_eq _ _ Q2 Q3 _ Ho).
    - intros W. apply (wf_change _ _ W); try lia.
      + intros p e' He. left. rewrite B4 in He. destruct (in_pages _ _ _); [discriminate|]. eauto.
      + intros fd f. rewrite Q2. auto.
      + intros q o. rewrite Q3. auto.
      + intros o. rewrite B6. auto.
    - intros [W1 W2 W3]. split; rewrite ?B3; auto. intros b m p Vb Ib. rewrite (Nv b m p Vb Ib). eauto.
  Qed.

  Definition bases_item (it : option item) (b : Z) : Prop := exists jt y, it = Some jt /\ i_thing jt = Some y /\ bases_of t y b.
  Definition item_ok (s : win) (it : option item) : Prop := forall jt, it = Some jt ->
    (forall x, i_thing jt = Some x -> thing_ok t s x /\ obj_of x = i_obj jt /\ private_thing x = i_priv jt) /\
    i_obj jt < w_next (n_w s) /\ (i_priv jt = true -> ~ named (n_w s) (i_obj jt)).
  (** The handle a thread has before and after its step. *)
  Definition sec_next (s s' : win) (old new : option Z) : Prop :=
    (n_sec s' = n_sec s /\ old = new) \/
    (exists h c, old = None /\ new = Some h /\ n_sec s h = None /\ n_sec s' = put (n_sec s) h (Some c)) \/
    (exists h, old = Some h /\ new = None /\ n_sec s' = put (n_sec s) h None).
  Record moved (s0 s s' : win) (old new : option item) (h h' r r' : option Z) : Prop := {
    mv_ev : exists X, evolves t X none none s s' /\ forall b, X b -> bases_item old b;
    mv_item : item_next t s s' old new;
    mv_sec : sec_next s s' h h';
    mv_kept : forall a n, n_resv s a = Some n -> r = Some a \/ n_resv s' a = Some n;
    mv_resv : forall a, r' = Some a -> n_resv s a = None \/ r = Some a;
    mv_tiled : tiled t s0 s'
  }.

  Lemma next_none s s' old : item_next t s s' old None.
  Proof. intros it H. discriminate H. Qed.
  (** Nothing mapped yet, or any more. *)
  Lemma next_bare s s' it ob pr : item_ok s (Some it) -> w_next (n_w s) <= w_next (n_w s') -> i_obj it = ob -> i_priv it = pr ->
    item_next t s s' (Some it) (Some {| i_obj := ob; i_priv := pr; i_thing := None |}).
  Proof.
    intros H N E1 E2 jt Hj. injection Hj as <-. destruct (H it eq_refl) as (_ & H2 & _). cbn. split; [discriminate|]. split; [lia|]. left. exists it. auto.
  Qed.
  Lemma next_same (T Y : Z -> Prop) s s' it : space_ok t s -> item_ok s (Some it) -> evolves t none T Y s s' -> item_next t s s' (Some it) (Some it).
  Proof.
    intros So H E jt Hj. injection Hj as <-. destruct (H it eq_refl) as (H1 & H2 & H3). split; [|split; [pose proof (ev_next _ _ _ _ _ _ E); lia|left; eauto]].
    intros x Hx. destruct (H1 x Hx) as (K1 & K2 & K3). split; [|split; [exact K2|split; [exact K3|intros b Hb; right; eauto]]].
    apply (thing_ev t Ht none T Y s s' x So E); [intros b []| |exact K1]. intros Px. rewrite K2. apply H3. congruence.
  Qed.

  (** The offset and the length of a view of a file. *)
  Lemma vplan_spec o L : options_ok t o -> is_usize t L -> vplan t o L = Ret None \/
    exists len, vplan t o L = Ret (Some (op_offset o - op_offset o mod G, len + op_offset o mod G, op_offset o mod G, len)) /\
      0 <= len /\ len + op_offset o < 2 ^ t_bits t.
  Proof.
    intros (_ & Ol & Oo) HL. unfold vplan. cbv zeta. set (off := op_offset o) in *.
    assert (HB : 0 < t_bits t) by (destruct Ht as [[E|E] _]; lia).
    assert (HGW : G < 2 ^ t_bits t) by (destruct Ht as ([E|E] & _ & _ & _ & H & _); rewrite E; lia).
    destruct (Z.ltb_spec L off) as [Lt|Ge]; [auto|]. unfold is_usize in HL, Oo. unfold usub at 1. rewrite wrap_in by lia. cbn [obind].
    destruct (extent_len (op_len o) (L - off)) as [len|] eqn:El; cbn [obind]; rewrite ?El; [|auto]. right. exists len.
    assert (Len : 0 <= len <= L - off).
    { unfold extent_len in El. destruct (op_len o) as [|n|n|n]; cbn [extent_ok] in Ol; unfold is_usize in Ol;
        try destruct (Z.ltb_spec (L - off) n); try discriminate El; injection El as <-; lia. }
    pose proof (Z.div_mod off G ltac:(lia)) as D1. pose proof (Z.mod_pos_bound off G HG) as D2.
    unfold size_alloc. rewrite (size_truncate_eq t HB G (proj1 (proj2 (proj2 Ht))) HGW) by (split; lia). cbn [obind].
    assert (Dv : 0 <= G * (off / G)). { pose proof (Z.div_pos off G ltac:(lia) ltac:(lia)). nia. }
    unfold usub. rewrite wrap_in by lia. cbn [obind]. replace (off - G * (off / G)) with (off mod G) by lia.
    rewrite ?El. unfold uadd. rewrite wrap_in by lia. cbn [obind]. rewrite wrap_in by lia. cbn [obind]. replace (G * (off / G)) with (off - off mod G) by lia. split; [reflexivity|lia].
  Qed.
  Lemma resize_keeps fd sz s r w' : wf (n_w s) -> is_usize t sz -> resize_to t fd sz (n_w s) = (r, w') -> keeps t s (with_w s w') /\ forall n, r = Ret n -> n = sz.
  Proof.
    intros W U E. change (resize_to (as_posix t) fd sz (n_w s) = (r, w')) in E.
    pose proof (resize_to_spec (as_posix t) (posix_of t Ht) fd sz (n_w s) r w' U E) as H. destruct r as [n|e| | |]; try contradiction.
    - destruct H as (-> & f & o & Hf & _ & ->). split; [|intros m [= <-]; reflexivity].
      assert (Tc : touched (fd_obj f) (n_w s) (resize_obj (as_posix t) (fd_obj f) sz (set_orc (n_w s) o))) by apply resize_touched.
      apply (ev_touched t (fd_obj f)); [exact Tc|left; eauto|]. intros W'. apply (wf_touched (as_posix t) (posix_of t Ht) _ _ _ W' Tc). right.
      destruct (resize_obj_spec (as_posix t) (fd_obj f) sz (set_orc (n_w s) o)) as (_ & _ & _ & _ & _ & Sz & _). rewrite Sz. exact U.
    - split; [apply ev_wq, with_w_quiet, H|discriminate].
  Qed.
End Inv.
