(** Histories of maps and rings on Windows: nothing is left behind. *)
From Coq Require Import Lia.
From Verif Require Import Base Spec ErrorModel SizeModel OsModel MapModel MapSpec RingMapModel RingMapSpec SizeProofs OsProofs
  MapProofs MapCreate MapOps MirrorProofs RingMapClaims WinModel WinSpec WinProofs WinClaims WinCalls WinMapModel WinMapSpec WinSpace WinOthers WinKeep WinMapProofs WinAlloc WinThings WinHist.

Section Leak.
  Variable t : target.
  Hypothesis Ht : good_target t.
  Notation P := (t_page t).
  Notation G := (t_alloc t).
  Notation q := (as_posix t).
  Let HP : 0 < P.
  Proof. exact (pow2_pos _ (proj1 (proj2 Ht))). Qed.
  Let HG : 0 < G.
  Proof. exact (pow2_pos _ (proj1 (proj2 (proj2 Ht)))). Qed.
  Let Hq : posix_target q.
  Proof. exact (posix_of t Ht). Qed.
  Let HB : 0 < t_bits t.
  Proof. destruct Ht as [[E|E] _]; lia. Qed.
  Let HGW : G < 2 ^ t_bits t.
  Proof. destruct Ht as ([E|E] & _ & _ & _ & H & _); rewrite E; lia. Qed.
  Let HPG : P <= G.
  Proof. apply Ht. Qed.

  (** The views, reservations and handles are the same and no page was added. *)
  Record still (s s' : win) : Prop := {
    sl_view : forall a, n_view s' a = n_view s a;
    sl_resv : forall a, n_resv s' a = n_resv s a;
    sl_sec : forall h, n_sec s' h = n_sec s h;
    sl_vm : forall p e, w_vm (n_w s') p = Some e -> exists e0, w_vm (n_w s) p = Some e0
  }.
  (** Views based in [B] were added, those based in [X] removed. *)
  Record moved (B X : Z -> Prop) (s s' : win) : Prop := {
    mv_view : forall a n, n_view s' a = Some n -> (n_view s a = Some n /\ ~ X a) \/ B a;
    mv_gone : forall a n p, X a -> n_view s a = Some n -> in_view t a n p -> w_vm (n_w s') p = None;
    mv_vm : forall p e, w_vm (n_w s') p = Some e -> (exists e0, w_vm (n_w s) p = Some e0) \/
       exists a n, B a /\ n_view s' a = Some n /\ in_view t a n p;
    mv_resv : forall a, n_resv s' a = n_resv s a;
    mv_sec : forall h, n_sec s' h = n_sec s h
  }.
  Lemma still_refl s : still s s.
  Proof. split; eauto. Qed.
  Lemma still_trans s1 s2 s3 : still s1 s2 -> still s2 s3 -> still s1 s3.
  Proof.
    intros [A1 A2 A3 A4] [B1 B2 B3 B4]. split; intros; try congruence. apply B4 in H as (e0 & H). eauto.
  Qed.
  Lemma still_moved s s' : still s s' -> moved none none s s'.
  Proof. intros [A B C D]. split; auto; [|intros a n p []|intros p e H; left; eauto]. intros a n H. rewrite A in H. auto. Qed.
  Lemma still_space s s' : same_space s s' -> (forall h, n_sec s' h = n_sec s h) -> still s s'.
  Proof. intros [A B C] D. split; auto. intros p e H. rewrite A in H. eauto. Qed.
  Lemma still_wq s s' : wq s s' -> still s s'.
  Proof. intros Q. apply still_space; [exact (wq_space _ _ Q)|]. apply (wq_other _ _ Q). Qed.
  Lemma still_other g a len s s' : other_state s s' -> pages_changed t g s s' a len -> still s s'.
  Proof.
    intros (A1 & A2 & A3 & _) C. split; auto. intros p e H. specialize (C p). destruct (_ && _).
    - destruct C as (e0 & C & _). eauto.
    - rewrite C in H. eauto.
  Qed.
  Lemma still_w s w1 : (forall p e, w_vm w1 p = Some e -> exists e0, w_vm (n_w s) p = Some e0) -> still s (with_w s w1).
  Proof. intros H. split; auto. Qed.
  Lemma moved_made s s1 s' m o off V p : still s s1 -> same_rest s1 s' -> map_made t s1 s' m o off V p -> moved (fun a => a = map_base t m) none s s'.
  Proof.
    intros [A1 A2 A3 A4] R [(V0 & Vg & Vl & Vh & [C1 C2 C3 C4 C5] & Vs) _ _ _ _]. split.
    - intros a n H. destruct (Z.eq_dec a (map_base t m)) as [->|N]; [auto|left]. rewrite C4, A1 in H by exact N. split; [exact H|intros []].
    - intros a n pg [].
    - intros pg e H. destruct (Z_le_dec (map_base t m / P) pg) as [L1|L1];
        [destruct (Z_lt_dec pg (map_base t m / P + npages t V)) as [L2|L2]|]; [right|left; rewrite C3 in H by lia; eauto..].
      exists (map_base t m), (npages t V). split; [reflexivity|]. split; [exact C1|]. unfold in_view. lia.
    - intros a. rewrite C5. auto.
    - intros h. rewrite (sr_sec _ _ R). auto.
  Qed.

  (** ** The calls *)
  Lemma map_if_moved o fd s r s' : wf (n_w s) -> options_ok t o -> wmap_if t o fd s = (r, s') ->
    match r with Ret (Some m) => moved (fun a => a = map_base t m) none s s' | _ => still s s' end.
  Proof.
    intros W Oo H. apply (wmap_if_spec t Ht) in H as [K H]; auto.
    destruct (w_fd (n_w s) fd) as [f|] eqn:Ef; [|destruct H as (e & -> & _ & S1 & S2 & _); exact (still_space _ _ S1 (sr_sec _ _ S2))].
    destruct H as (w1 & Fd & H). cbv zeta in H. pose proof (fdn_touched _ _ _ _ _ Fd) as [Tv Tn Tf Ts _ _].
    assert (S1 : still s (with_w s w1)).
    { apply still_w. intros p e He. specialize (Tv p). rewrite He in Tv. destruct (w_vm (n_w s) p); [eauto|contradiction]. }
    destruct r as [[m|]|e| | |]; try contradiction.
    - destruct H as (L & _ & _ & _ & _ & R & N & _ & M). exact (moved_made _ _ _ _ _ _ _ _ S1 R M).
    - destruct H as (L & -> & _). exact S1.
    - destruct H as (H1 & H2 & _). exact (still_trans _ _ _ S1 (still_space _ _ H1 (sr_sec _ _ H2))).
  Qed.

  Lemma moved_pre B s s1 s2 : still s s1 -> moved B none s1 s2 -> moved B none s s2.
  Proof.
    intros [A1 A2 A3 A4] [M1 M2 M3 M4 M5]. split.
    - intros a n H. destruct (M1 a n H) as [[H1 H2]|H1]; [left|auto]. rewrite <- A1. auto.
    - intros a n p [].
    - intros p e H. destruct (M3 p e H) as [(e0 & H1)|H1]; [left; eauto|auto].
    - intros a. rewrite M4. auto.
    - intros h. rewrite M5. auto.
  Qed.

  Lemma open_if_moved o path s r s' : wf (n_w s) -> options_ok t o -> wopen_if t o path s = (r, s') ->
    match r with Ret (Some m, _) => moved (fun a => a = map_base t m) none s s' | _ => still s s' end.
  Proof.
    intros W Oo H. unfold wopen_if in H. unfold wbind at 1, lift, io_call in H.
    destruct (file_open t (op_open o) path (n_w s)) as [x w1] eqn:E. pose proof (file_open_keeps t Ht _ _ _ _ _ W E) as K.
    assert (S1 : still s (with_w s w1)).
    { apply still_w. intros p e He. apply file_open_spec in E. destruct x as [fd|e0| | |]; try contradiction.
      - destruct E as [_ E]. change (sys_open q path (oo_write (op_open o)) (oo_create (op_open o) || oo_create_new (op_open o)) (oo_create_new (op_open o))
              (oo_truncate (op_open o) && negb (oo_create_new (op_open o))) (n_w s) = (Ret fd, w1)) in E.
        apply (open_spec q _ _ _ _ _ _ _ _ W) in E as (_ & _ & ob & _ & _ & _ & M). destruct (w_fs (n_w s) path).
        + destruct M as (_ & _ & w2 & [V _ _ _ _ _] & _ & Ev & _). rewrite Ev in He. specialize (V p). rewrite He in V.
          destruct (w_vm (n_w s) p); [eauto|contradiction].
        + destruct M as (_ & _ & _ & Ev & _). rewrite Ev in He. eauto.
      - rewrite (q_vm _ _ E) in He. eauto. }
    pose proof (ev_wf _ _ _ _ _ _ K W) as W1.
    destruct x as [fd|e| | |]; try (injection H as <- <-; exact S1).
    set (s1 := with_w s w1) in *. unfold wbind, wclosing in H. destruct (wmap_if t o fd s1) as [y s2] eqn:E2.
    pose proof (map_if_moved o fd s1 y s2 W1 Oo E2) as Hy.
    assert (SC : still s2 (with_w s2 (snd (sys_close fd (n_w s2))))) by (apply still_w; cbn; eauto).
    destruct y as [m|e| | |]; injection H as <- <-; try exact (still_trans _ _ _ S1 (still_trans _ _ _ Hy SC)).
    destruct m as [m|]; [exact (moved_pre _ _ _ _ S1 Hy)|exact (still_trans _ _ _ S1 Hy)].
  Qed.

  Lemma alloc_moved o s r s' : wf (n_w s) -> options_ok t o -> walloc_fits t o \/ t_checks t = true -> walloc t o s = (r, s') ->
    match r with Ret m => moved (fun a => a = map_base t m) none s s' | _ => still s s' end.
  Proof.
    intros W Oo Fi H. apply (walloc_spec t Ht) in H as (K & R & H); auto. destruct r as [m|e| | |]; try contradiction.
    - destruct H as (_ & _ & N & M & _). exact (moved_made _ _ _ _ _ _ _ _ (still_refl s) R M).
    - exact (still_space _ _ (proj1 (proj2 H)) (sr_sec _ _ R)).
    - destruct H as [_ ->]. apply still_refl.
  Qed.

  Lemma released_of s s' l : calls s s' l -> released s s' -> ~ failed_release l.
  Proof.
    intros C (l' & C' & N). unfold calls in *. rewrite C in C'. apply app_inv_tail in C'. subst l'. exact N.
  Qed.

  Lemma ring_moved hint s r s' : is_usize t hint -> win_ring_new t hint s = (r, s') -> released s s' ->
    match r with Ret a => moved (fun b => b = ra_ptr a \/ b = ra_ptr a + ra_len a) none s s' | _ => still s s' end.
  Proof.
    intros Hh H Rl.
    assert (Bad : (forall a, r <> Ret a) -> still s s').
    { intros Hr. unfold win_ring_new in H. pose proof (round_cases t Ht hint Hh) as RC. unfold wbind at 1, wout in H.
      destruct (size_round (E:=error) t (size_alloc t) hint) as [len|e| | |]; try contradiction.
      - destruct RC as [Ul _]. apply wbind_run in H as [(pg & s1 & E & H)|H].
        { exfalso. injection H as <- <-. exact (Hr _ eq_refl). }
        destruct H as [(e & E & ->)|[[E ->]|[[E ->]|[E ->]]]]; apply (win_map_ring_spec t Ht) in E as (l & Cl & _ & R & E); auto; try contradiction.
        + destruct E as [[E|E] _]; [destruct (released_of _ _ _ Cl Rl E)|]. exact (still_space _ _ E (sr_sec _ _ R)).
        + destruct E as (_ & _ & ->). apply still_refl.
      - injection H as <- <-. apply still_refl. }
    destruct r as [a|e| | |]; try (apply Bad; discriminate). clear Bad.
    apply (win_ring_new_spec t Ht) in H as (_ & H & Ul); [|exact Hh].
    apply (win_map_ring_spec t Ht) in H as (l & Cl & _ & R & (n & En & Wr) & _); [|exact Ul].
    destruct (wr_rest _ _ _ _ _ _ Wr) as [F|(F1 & F2 & F3 & F4 & F5)]; [destruct (released_of _ _ _ Cl Rl F)|].
    destruct (wr_view _ _ _ _ _ _ Wr) as [V1 V2]. rewrite En. set (L := P * n) in *. split.
    - intros b k H. destruct (Z.eq_dec b (ra_ptr a)); [auto|]. destruct (Z.eq_dec b (ra_ptr a + L)); [auto|]. left. rewrite F3 in H by auto. auto.
    - intros b k p [].
    - intros p e H. destruct (Z_le_dec (ra_ptr a / P) p) as [L1|L1]; [destruct (Z_lt_dec p (ra_ptr a / P + 2 * n)) as [L2|L2]|]; [right|left; rewrite F2 in H by lia; eauto..].
      destruct (Z_lt_dec p (ra_ptr a / P + n)) as [L3|L3].
      + exists (ra_ptr a), n. split; [auto|]. split; [exact V1|]. unfold in_view. lia.
      + exists (ra_ptr a + L), n. split; [auto|]. split; [exact V2|]. unfold in_view.
        destruct (page_split t Ht (ra_ptr a) L (aligned_page t Ht _ (wr_align _ _ _ _ _ _ Wr))) as [-> _].
        unfold L. rewrite (Z.mul_comm P n), Z.div_mul by lia. lia.
    - exact F5.
    - exact (sr_sec _ _ R).
  Qed.

  Lemma drop_moved x s r s' : thing_ok t s x ->
    match x with TMap v => wdrop t (v_map v) s | TRing a _ => win_ring_drop t a s end = (r, s') -> released s s' ->
    match x with TMap v => 0 < m_len (v_map v) | TRing _ _ => True end -> moved none (bases_of t x) s s'.
  Proof.
    intros H E Rl Pos. destruct x as [v|a o].
    - destruct H as [M1 M2 M3 M4 M5 M6 M7 M8]. destruct (wdrop_spec t Ht _ _ _ _ M1 M2 M3 E) as [_ D].
      destruct (Z.eqb_spec (m_len (v_map v)) 0) as [Z0|_]; [lia|]. destruct D as (b & D & Cl & R). set (B := map_base t (v_map v)) in *.
      pose proof (unmap_view_spec t _ _ _ _ D) as [_ U]. destruct b as [[]|e| | |]; try contradiction.
      + destruct U as (n & A1 & A2 & A3 & A4 & A5 & _). split; cbn [bases_of]; fold B.
        * intros b k Hv. left. rewrite A2 in Hv. unfold put in Hv. destruct (Z.eqb_spec b B); [discriminate Hv|auto].
        * intros b k p -> Hv Ip. assert (k = n) by congruence. subst k. rewrite A3, in_pages_yes by exact Ip. reflexivity.
        * intros p e Hp. rewrite A3 in Hp. left. destruct (in_pages _ _ _); [discriminate Hp|eauto].
        * intros b. rewrite A4. reflexivity.
        * intros b. rewrite A5. reflexivity.
      + exfalso. apply (released_of _ _ _ Cl Rl). exists B. right. left. reflexivity.
    - destruct H as (n & R). cbn [bases_of]. pose proof R as [R1 R2 R3 R4 R5 [R6 R6'] R7 R8 R9]. rewrite R2 in *. unfold win_ring_drop in E. rewrite R2 in E.
      destruct (win_unmap_ring t (ra_ptr a) (P * n) s) as [y s2] eqn:U.
      assert (s2 = s') by (destruct y; injection E; auto). subst s2.
      pose proof U as U2. apply (win_unmap_ring_spec t Ht) in U as (Rs & Rv & U); auto; try lia; try nia.
      assert (Sec : forall h, n_sec s' h = n_sec s h) by apply Rs.
      destruct y as [[]|e| | |]; try contradiction.
      + destruct U as (b & Cl & Vm & Vw). destruct b.
        2:{ exfalso. apply (released_of _ _ _ Cl Rl). exists (ra_ptr a). right. left. reflexivity. }
        cbn [andb] in *. split; auto.
        * intros b k Hv. left. rewrite Vw in Hv. destruct (Z.eqb_spec b (ra_ptr a + P * n)), (Z.eqb_spec b (ra_ptr a)); cbn [orb] in Hv; try discriminate Hv. split; [exact Hv|]. intros [X|X]; rewrite ?R2 in X; contradiction.
        * intros b k p Hb Hv Ip. cbn [bases_of] in Hb. rewrite R2 in Hb. rewrite Vm. unfold in_view in Ip. destruct Hb as [-> | ->]; assert (k = n) by congruence; subst k.
          -- rewrite (in_pages_yes (ra_ptr a / P) n p) by exact Ip. rewrite Bool.orb_true_r. reflexivity.
          -- destruct (page_split t Ht (ra_ptr a) (P * n) R3) as [E1 _]. rewrite E1, (Z.mul_comm P n), Z.div_mul in Ip by lia.
             rewrite (in_pages_yes (ra_ptr a / P + n) n p) by exact Ip. reflexivity.
        * intros p e Hp. rewrite Vm in Hp. left. destruct (_ || _); [discriminate Hp|eauto].
      + exfalso. destruct U as (Cl & _). apply (released_of _ _ _ Cl Rl). exists (ra_ptr a + P * n). right. left. reflexivity.
  Qed.

  (** ** Programs *)

  (** Every view belongs to a thing held or is one of [OV], every mapped page
      to a view or is one of [OP]. *)
  Record held_but (OV OP : Z -> Prop) (g : prog) : Prop := {
    hb_view : forall a n, n_view (g_s g) a = Some n -> OV a \/ exists k x, g_tab g k = Some x /\ bases_of t x a;
    hb_page : forall p e, w_vm (n_w (g_s g)) p = Some e -> OP p \/ exists a n, n_view (g_s g) a = Some n /\ in_view t a n p
  }.
  Variables OV OP : Z -> Prop.
  Notation exact := (held_but OV OP).

  Lemma exact_moved B X g s' tab cnt : exact g -> moved B X (g_s g) s' ->
    (forall a n, n_view (g_s g) a = Some n -> X a \/ n_view s' a = Some n) ->
    (forall k x a, g_tab g k = Some x -> bases_of t x a -> ~ X a -> exists k' x', tab k' = Some x' /\ bases_of t x' a) ->
    (forall a, B a -> exists k x, tab k = Some x /\ bases_of t x a) ->
    exact {| g_s := s'; g_tab := tab; g_cnt := cnt |} /\ same_kernel (g_s g) s'.
  Proof.
    intros [E1 E2] [M1 M2 M3 M4 M5] Kv Kt Kb. split; [|split; auto]. split; cbn.
    - intros a n H. destruct (M1 a n H) as [[Ha Nx]|Ba]; [|auto]. destruct (E1 a n Ha) as [O|(k & x & Hx & Bx)]; [auto|]. right. exact (Kt _ _ _ Hx Bx Nx).
    - intros p e H. destruct (M3 p e H) as [(e0 & H0)|(a & n & Ba & Va & Ia)]; [|right; eauto].
      destruct (E2 p e0 H0) as [O|(a & n & Va & Ia)]; [auto|right]. destruct (Kv a n Va) as [Xa|Va']; [|eauto].
      rewrite (M2 a n p Xa Va Ia) in H. discriminate H.
  Qed.
  Lemma exact_same g s' : exact g -> still (g_s g) s' -> exact (g_set g s') /\ same_kernel (g_s g) s'.
  Proof.
    intros E S1. apply (exact_moved none none); auto.
    - exact (still_moved _ _ S1).
    - intros a n H. right. rewrite (sl_view _ _ S1). exact H.
    - intros k x a Hx Bx _. eauto.
    - intros a [].
  Qed.
  Lemma exact_id g : exact g -> exact g /\ same_kernel (g_s g) (g_s g).
  Proof. intros E. split; [exact E|]. split; auto. Qed.
  Lemma exact_add (B : Z -> Prop) g s' x : prog_ok t g -> exact g -> moved B none (g_s g) s' -> keeps t (g_s g) s' ->
    (forall a, B a -> bases_of t x a) -> exact (g_add g s' x) /\ same_kernel (g_s g) s'.
  Proof.
    intros G E M K HB'. apply (exact_moved B none); auto.
    - intros a n H. destruct (ev_view _ _ _ _ _ _ K a n H) as [[]|V]. auto.
    - intros k y a Hy By _. exists k, y. pose proof (po_keys _ _ G _ _ Hy). rewrite put_other by lia. auto.
    - intros a Ba. exists (g_cnt g), x. rewrite put_same. auto.
  Qed.

  Definition page_still (f : Z -> Z -> WT error unit) : Prop := forall a len s r s', 0 <= a -> f a len s = (r, s') -> still s s'.
  Lemma protect_still : page_still (fun a l => win_protect t a l ReadWrite).
  Proof.
    intros a len s r s' Ha H. apply (win_protect_spec t Ht) in H as [O H]; [|exact Ha]. destruct r as [[]|e| | |]; try contradiction.
    - exact (still_other _ _ _ _ _ O (proj2 H)).
    - exact (still_space _ _ (proj1 H) (proj1 O)).
  Qed.
  Lemma lock_still : page_still (win_lock t).
  Proof.
    intros a len s r s' Ha H. apply (win_lock_spec t Ht) in H as [O H]; [|exact Ha]. destruct r as [[]|e| | |]; try contradiction.
    - exact (still_other _ _ _ _ _ O (proj2 H)).
    - exact (still_space _ _ (proj1 H) (proj1 O)).
  Qed.
  Lemma unlock_still : page_still (win_unlock t).
  Proof.
    intros a len s r s' Ha H. apply (win_unlock_spec t Ht) in H as [O H]; [|exact Ha]. destruct r as [[]|e| | |]; try contradiction.
    - exact (still_other _ _ _ _ _ O (proj2 H)).
    - exact (still_space _ _ (proj1 H) (proj1 O)).
  Qed.
  Lemma advise_still adv : page_still (fun a l => win_advise a l adv).
  Proof. intros a len s r s' Ha H. assert (s' = s) by (injection H; auto). subst s'. apply still_refl. Qed.
  Lemma flush_still fd mode : page_still (fun a l => win_flush t a fd l mode).
  Proof. intros a len s r s' Ha H. apply (win_flush_any t Ht) in H as [(K1 & K2 & _) _]; [|exact Ha]. exact (still_space _ _ K1 K2). Qed.

  Lemma whole_still m f s r s' : is_usize t (m_ptr m) -> page_still f -> wwhole t m f s = (r, s') -> still s s'.
  Proof.
    intros Hp HF H. unfold wwhole in H. apply wbind_run in H as [(b & s1 & E & H)|H]; unfold wout in *.
    - assert (X : size_bounds (E:=error) t (size_page t) (m_ptr m) (m_len m) = Ret b /\ s1 = s) by (injection E; auto). destruct X as [X ->].
      refine (HF _ _ _ _ _ _ H). exact (bounds_nonneg t Ht P _ _ _ (proj1 (proj2 Ht)) ltac:(lia) Hp X).
    - destruct H as [(e & E & ->)|[[E ->]|[[E ->]|[E ->]]]]; (assert (s' = s) by (injection E; auto)); subst s'; apply still_refl.
  Qed.
  Lemma ranged_still op m off len f s r s' : page_still f -> wranged t op m off len f s = (r, s') -> still s s'.
  Proof.
    intros HF H. unfold wranged in H. apply wbind_run in H as [(e & s1 & E & H)|H]; unfold wout in E || unfold wout in H.
    - assert (s1 = s) by (injection E; auto). subst s1. destruct (m_len m <? e).
      + assert (s' = s) by (injection H; auto). subst s'. apply still_refl.
      + apply wbind_run in H as [(b & s1 & E1 & H)|H]; unfold wout in *.
        * assert (X : size_bounds (E:=error) t (size_page t) (ptr_add t (m_ptr m) off) len = Ret b /\ s1 = s) by (injection E1; auto). destruct X as [X ->].
          refine (HF _ _ _ _ _ _ H). refine (bounds_nonneg t Ht P _ _ _ (proj1 (proj2 Ht)) ltac:(lia) _ X).
          unfold ptr_add, as_usize, is_usize. apply Z.mod_pos_bound. lia.
        * destruct H as [(e0 & E0 & ->)|[[E0 ->]|[[E0 ->]|[E0 ->]]]]; (assert (s' = s) by (injection E0; auto)); subst s'; apply still_refl.
    - destruct H as [(e & E & ->)|[[E ->]|[[E ->]|[E ->]]]]; (assert (s' = s) by (injection E; auto)); subst s'; apply still_refl.
  Qed.
  Lemma store_still addr b s r w' : OsModel.store (E:=error) t addr b (n_w s) = (r, w') -> still s (with_w s w').
  Proof.
    intros H. apply still_w. intros p e He. change (OsModel.store (E:=error) q addr b (n_w s) = (r, w')) in H.
    apply (store_effect q) in H as [[-> ->]|(-> & _ & _ & _ & e0 & He0 & _ & _ & C)]; [eauto|].
    destruct C as [(_ & V & _)|(_ & _ & c & V)]; rewrite V in He; [eauto|]. unfold put in He. change (t_page q) with P in *.
    destruct (Z.eqb_spec p (addr / P)) as [->|N]; eauto.
  Qed.

  Lemma exact_step a g : act_ok t a -> prog_ok t g -> exact g ->
    (match a with ARing _ | ADrop _ => released (g_s g) (g_s (snd (act_step t a g))) | _ => True end) -> drops_filled a g ->
    exact (snd (act_step t a g)) /\ same_kernel (g_s g) (g_s (snd (act_step t a g))).
  Proof.
    intros Ha G Ex Rl Df. pose proof G as [W So Ks Th Ap Ow].
    assert (PL : forall (y : out error unit) s', still (g_s g) s' -> exact (snd (plain g (y, s'))) /\ same_kernel (g_s g) (g_s (snd (plain g (y, s'))))).
    { intros y s' K. destruct y; apply exact_same; auto. }
    assert (Wm : forall k f, (forall v, g_tab g k = Some (TMap v) -> exact (snd (f v)) /\ same_kernel (g_s g) (g_s (snd (f v)))) ->
      exact (snd (with_map g k f)) /\ same_kernel (g_s g) (g_s (snd (with_map g k f)))).
    { intros k f H. unfold with_map. destruct (g_tab g k) as [[v|r o]|]; [auto| |]; apply exact_id, Ex. }
    assert (Wu : forall k f, (forall v, g_tab g k = Some (TMap v) -> exact (snd (f v)) /\ same_kernel (g_s g) (g_s (snd (f v)))) ->
      exact (snd (with_mut g k f)) /\ same_kernel (g_s g) (g_s (snd (with_mut g k f)))).
    { intros k f H. apply Wm. intros v Hv. destruct (v_mut v); [auto|]. apply exact_id, Ex. }
    assert (Us : forall k v, g_tab g k = Some (TMap v) -> is_usize t (m_ptr (v_map v))).
    { intros k v Hv. destruct (Th _ _ Hv) as [M1 M2 M3 _ _ _ _ _]. unfold map_base in M2. pose proof (Z.div_mod (m_ptr (v_map v)) (t_alloc t) ltac:(lia)).
      pose proof (Z.mod_pos_bound (m_ptr (v_map v)) (t_alloc t) HG). split; lia. }
    assert (Wh : forall k f, page_still f -> forall v, g_tab g k = Some (TMap v) ->
      exact (snd (plain g (wwhole t (v_map v) f (g_s g)))) /\ same_kernel (g_s g) (g_s (snd (plain g (wwhole t (v_map v) f (g_s g)))))).
    { intros k f F v Hv. destruct (wwhole t (v_map v) f (g_s g)) as [y s'] eqn:E. apply PL. exact (whole_still _ _ _ _ _ (Us _ _ Hv) F E). }
    assert (Wr : forall k f op off len, page_still f -> forall v, g_tab g k = Some (TMap v) ->
      exact (snd (plain g (wranged t op (v_map v) off len f (g_s g)))) /\ same_kernel (g_s g) (g_s (snd (plain g (wranged t op (v_map v) off len f (g_s g)))))).
    { intros k f op off len F v Hv. destruct (wranged t op (v_map v) off len f (g_s g)) as [y s'] eqn:E. apply PL. exact (ranged_still _ _ _ _ _ _ _ _ F E). }
    assert (Cv : forall k v b r s', g_tab g k = Some (TMap v) -> wwhole t (v_map v) (fun p l => win_protect t p l ReadWrite) (g_s g) = (r, s') ->
      let g' := match r with Ret _ => g_put g s' k (Some (converted v b)) | _ => g_set g s' end in exact g' /\ same_kernel (g_s g) (g_s g')).
    { intros k v b r s' Hk H. pose proof (whole_still _ _ _ _ _ (Us _ _ Hk) protect_still H) as K. cbv zeta.
      destruct r as [[]|e| | |]; try (exact (exact_same g s' Ex K)). apply (exact_moved none none); auto.
      - exact (still_moved _ _ K).
      - intros a0 n Hn. right. rewrite (sl_view _ _ K). exact Hn.
      - intros j x a0 Hx Bx _. unfold put. destruct (Z.eq_dec j k) as [->|N].
        + exists k, (converted v b). rewrite Z.eqb_refl. split; [reflexivity|]. assert (x = TMap v) by congruence. subst x. exact Bx.
        + exists j, x. apply Z.eqb_neq in N. rewrite N. auto.
      - intros a0 []. }
    destruct a; cbn [act_step act_ok] in *.
    - destruct (wopen_if t o path (g_s g)) as [r s'] eqn:E. pose proof (proj1 (open_if_thing t Ht mut _ _ _ _ _ W So Ha E)) as K.
      pose proof (open_if_moved _ _ _ _ _ W Ha E) as M.
      destruct r as [[[m|] fd]|e| | |]; cbn [finish snd fst]; try (apply exact_same; auto; fail).
      refine (exact_add _ g s' _ G Ex M K _). intros b ->. reflexivity.
    - destruct (wmap_if t o fd (g_s g)) as [r s'] eqn:E. pose proof (proj1 (map_if_thing t Ht mut _ _ _ _ _ W So Ha E)) as K.
      pose proof (map_if_moved _ _ _ _ _ W Ha E) as M.
      destruct r as [[m|]|e| | |]; cbn [finish snd fst]; try (apply exact_same; auto; fail).
      refine (exact_add _ g s' _ G Ex M K _). intros b ->. reflexivity.
    - destruct Ha as [Ha1 Ha2]. destruct (walloc t o (g_s g)) as [r s'] eqn:E. pose proof (proj1 (alloc_thing t Ht mut _ _ _ _ W So Ha1 Ha2 E)) as K.
      pose proof (alloc_moved _ _ _ _ W Ha1 Ha2 E) as M.
      destruct r as [m|e| | |]; cbn [finish snd fst]; try (apply exact_same; auto; fail).
      refine (exact_add _ g s' _ G Ex M K _). intros b ->. reflexivity.
    - apply exact_same; [exact Ex|]. apply still_w. cbn. eauto.
    - apply Wm. intros v Hv. destruct (v_mut v); [apply exact_id, Ex|].
      unfold winto_map_mut, wconvert. destruct (wwhole t (v_map v) _ (g_s g)) as [r s'] eqn:E.
      pose proof (Cv k v true r s' Hv E) as H. destruct r as [[]|e| | |]; exact H.
    - apply Wu. intros v Hv.
      unfold winto_map, wconvert. destruct (wwhole t (v_map v) _ (g_s g)) as [r s'] eqn:E.
      pose proof (Cv k v false r s' Hv E) as H. destruct r as [[]|e| | |]; exact H.
    - destruct (g_tab g k) as [[v|r o]|]; [| |apply exact_id, Ex].
      + assert (E : snd (wget t (v_map v) i (g_s g)) = with_w (g_s g) (n_w (g_s g))) by (unfold wget, lift, map_get; destruct (_ && _); reflexivity).
        unfold reads in *. destruct (wget t (v_map v) i (g_s g)) as [y s']. cbn in E. subst s'.
        assert (S1 : still (g_s g) (with_w (g_s g) (n_w (g_s g)))) by (apply still_w; eauto). destruct y; apply exact_same; auto.
      + assert (E : snd (wring_get t r i (g_s g)) = g_s g) by (unfold wring_get; destruct (_ && _); reflexivity).
        unfold reads in *. destruct (wring_get t r i (g_s g)) as [y s']. cbn in E. subst s'. pose proof (still_refl (g_s g)). destruct y; apply exact_same; auto.
    - assert (Out : forall y : out error unit, let x := plain g (y, with_w (g_s g) (n_w (g_s g))) in exact (snd x) /\ same_kernel (g_s g) (g_s (snd x))).
      { intros y. apply PL. apply still_w. eauto. }
      assert (In : forall addr, let x := plain g (lift (OsModel.store (E:=error) t addr b) (g_s g)) in exact (snd x) /\ same_kernel (g_s g) (g_s (snd x))).
      { intros addr. unfold lift. destruct (OsModel.store t addr b (n_w (g_s g))) as [r w'] eqn:E. apply PL. exact (store_still _ _ _ _ _ E). }
      cbv zeta in Out, In. clear Rl. destruct (g_tab g k) as [[v|r o]|].
      + destruct (v_mut v); [|apply exact_id, Ex]. unfold wset, map_set, lift. destruct (_ && _); [apply In|apply Out].
      + unfold wring_set, lift. destruct (_ && _); [apply In|apply Out].
      + apply exact_id, Ex.
    - apply Wu. exact (Wh k _ (flush_still fd mode)).
    - apply Wu. exact (Wr k _ _ _ _ (flush_still fd mode)).
    - apply Wm. exact (Wh k _ (advise_still adv)).
    - apply Wm. exact (Wr k _ _ _ _ (advise_still adv)).
    - apply Wm. exact (Wh k _ lock_still).
    - apply Wm. exact (Wr k _ _ _ _ lock_still).
    - apply Wm. exact (Wh k _ unlock_still).
    - apply Wm. exact (Wr k _ _ _ _ unlock_still).
    - destruct (win_ring_new t hint (g_s g)) as [r s'] eqn:E. pose proof (proj1 (ring_thing t Ht _ _ _ _ W Ha E)) as K.
      assert (Rl' : released (g_s g) s') by (destruct r; exact Rl).
      pose proof (ring_moved _ _ _ _ Ha E Rl') as M.
      destruct r as [m|e| | |]; cbn [finish snd fst]; try (apply exact_same; auto; fail).
      refine (exact_add _ g s' _ G Ex M K _). auto.
    - destruct (g_tab g k) as [x|] eqn:Hk; [|apply exact_id, Ex].
      destruct (match x with TMap v => wdrop t (v_map v) (g_s g) | TRing r _ => win_ring_drop t r (g_s g) end) as [r s'] eqn:E.
      destruct (drop_thing t Ht x _ _ _ W (Th _ _ Hk) E) as [-> K]. cbn [finish snd fst] in *.
      assert (M : moved none (bases_of t x) (g_s g) s').
      { apply (drop_moved x _ _ _ (Th _ _ Hk) E Rl). destruct x as [v|a o]; [|exact I]. exact (Df k v eq_refl Hk). }
      refine (exact_moved none (bases_of t x) g s' _ _ Ex M _ _ _).
      + exact (ev_view _ _ _ _ _ _ K).
      + intros j y b Hy By Nb. exists j, y. rewrite put_other; [auto|]. intros ->. assert (y = x) by congruence. subst y. contradiction.
      + intros b [].
    - apply exact_same; [exact Ex|]. split; auto. intros p x H. destruct (w_vm (n_w (g_s g)) p) as [y|] eqn:E; [eauto|].
      apply (others_unmapped t e) in E. cbn in H. congruence.
  Qed.
End Leak.
