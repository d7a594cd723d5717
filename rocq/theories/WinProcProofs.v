(** Programs with maps and rings on Windows: every call on a ring amounts to a
    list of stores through it, so such a program is one of the histories of
    WinMapSpec.v. *)
From Coq Require Import Lia.
From Verif Require Import Base Spec ErrorModel RingSpec RingModel SizeModel SizeProofs SeqProofs OsModel MapModel MapSpec OsProofs MapProofs MapCreate MapOps
  RingMapModel RingMapSpec MirrorProofs RingMapClaims RingProofs IRingProofs RingWeak MemRingModel MemRingProofs
  ApiModel ApiSpec ApiProofs ProcModel ProcSpec ProcFrame ProcProofs ProcClaims
  WinModel WinSpec WinProofs WinClaims WinCalls WinMapModel WinMapSpec WinSpace WinKeep WinMapProofs WinAlloc WinThings WinHist WinLeak WinMapClaims
  WinProcModel WinProcSpec.

Section Proc.
  Variable t : target.
  Hypothesis Ht : good_target t.
  Notation P := (t_page t).
  Let HP : 0 < P.
  Proof. exact (pow2_pos _ (proj1 (proj2 Ht))). Qed.
  Let HB : 32 <= t_bits t <= 64.
  Proof. destruct Ht as [[E|E] _]; lia. Qed.

  (** The ring's bytes. *)
  Definition holding (s : win) (r : ring_alloc) (o : Z) (m : Z -> byte) : Prop :=
    forall v, 0 <= v < ra_len r -> o_data (w_obj (n_w s) o) v = m v.

  Record wpok (p : wproc) : Prop := {
    wk_prog : prog_ok t (wp_g p);
    wk_ring : forall k h, wp_ring p k = Some h -> h_fit t h /\ exists o, g_tab (wp_g p) k = Some (TRing (h_alloc h) o)
  }.

  (** ** Runs *)
  Lemma act_run_app h1 : forall h2 g, act_run t (h1 ++ h2) g = act_run t h2 (act_run t h1 g).
  Proof. induction h1 as [|a h1 IH]; intros h2 g; [reflexivity|]. cbn [app act_run]. apply IH. Qed.
  Lemma tidy_run_app h1 : forall h2 g, tidy_run t (h1 ++ h2) g <-> tidy_run t h1 g /\ tidy_run t h2 (act_run t h1 g).
  Proof.
    induction h1 as [|a h1 IH]; intros h2 g; [cbn; tauto|]. cbn [app act_run tidy_run]. rewrite IH. tauto.
  Qed.
  Lemma tidy_run_ok h : forall g, tidy_run t h g -> Forall (act_ok t) h.
  Proof. induction h as [|a h IH]; intros g H; [constructor|]. destruct H as (H1 & _ & _ & H2). constructor; [exact H1|exact (IH _ H2)]. Qed.

  (** ** One byte *)
  Lemma ring_peek s r o n v m : ring_ok t s r o n -> holding s r o m -> 0 <= v < 2 * ra_len r ->
    wpeek t s (ra_ptr r + v) = Ret (m (v mod ra_len r)).
  Proof.
    intros R H Hv. unfold wpeek. apply load_any. rewrite (ring_load t Ht s r o n v R Hv). f_equal. apply H.
    apply Z.mod_pos_bound. rewrite (ro_len _ _ _ _ _ R). pose proof (ro_n _ _ _ _ _ R). nia.
  Qed.
  Definition stored (w : world) (o i : Z) (b : byte) : world :=
    set_obj w (put (w_obj w) o {| o_size := o_size (w_obj w o); o_data := upd (o_data (w_obj w o)) i b; o_disk := o_disk (w_obj w o) |}).
  Lemma ring_poke s r o n v b : ring_ok t s r o n -> 0 <= v < 2 * ra_len r ->
    store (E:=error) t (ra_ptr r + v) b (n_w s) = (Ret tt, stored (n_w s) o (v mod ra_len r) b).
  Proof.
    intros R Hi. destruct (ring_byte t Ht s r o n v R Hi) as (E1 & E2 & Hk & E3 & B1 & B2).
    destruct (ro_page _ _ _ _ _ R _ Hk) as (e & He & Eo & Ei & Er & Ew & Es & Ec). pose proof (ro_size _ _ _ _ _ R) as Sz.
    unfold OsModel.store. rewrite E1, He, E2, Ew, Eo, Ei, Es, E3. cbn [negb].
    destruct (Z.leb_spec (o_size (w_obj (n_w s) o)) (P * ((v / P) mod n))); [nia|].
    rewrite (proj2 (Z.ltb_lt (v mod ra_len r) (o_size (w_obj (n_w s) o)))); [reflexivity|]. rewrite <- E3. nia.
  Qed.
  Lemma stored_in w o i b : only_in o w (stored w o i b).
  Proof.
    split; cbn; try reflexivity; unfold put; [intros o' N; rewrite (proj2 (Z.eqb_neq o' o) N)| |..]; try rewrite Z.eqb_refl; reflexivity.
  Qed.

  (** ** Calls on a ring *)
  Section Ring.
    Variables (g : prog) (k : Z) (r : ring_alloc) (o : Z).
    Hypothesis Hk : g_tab g k = Some (TRing r o).
    Definition rst (s : win) (m : Z -> byte) : Prop := prog_ok t (g_set g s) /\ holding s r o m.
    Definition sets (a : act) : Prop := exists i b, a = ASet k i b.
    Definition run_sets (s s' : win) : Prop :=
      (exists hs, Forall sets hs /\ tidy_run t hs (g_set g s) /\ g_set g s' = act_run t hs (g_set g s)) /\
      (exists w', s' = with_w s w' /\ only_in o (n_w s) w').
    Lemma rs_refl s : run_sets s s.
    Proof. split; [exists []; cbn; auto|]. exists (n_w s). split; [destruct s; reflexivity|apply only_in_refl]. Qed.
    Lemma rs_trans a b c : run_sets a b -> run_sets b c -> run_sets a c.
    Proof.
      intros [(h1 & A1 & A2 & A3) (w1 & A4 & A5)] [(h2 & B1 & B2 & B3) (w2 & B4 & B5)]. split.
      - exists (h1 ++ h2). split; [apply Forall_app; auto|]. rewrite tidy_run_app, act_run_app, <- A3. auto.
      - exists w2. split; [rewrite B4, A4; reflexivity|]. rewrite A4 in B5. exact (only_in_trans _ _ _ _ A5 B5).
    Qed.
    Lemma rst_ring s m : rst s m -> exists n, ring_ok t s r o n.
    Proof. intros [H _]. exact (po_thing _ _ H k _ Hk). Qed.
    Lemma rst_peek s m v : rst s m -> 0 <= v < 2 * ra_len r -> wpeek t s (ra_ptr r + v) = Ret (m (v mod ra_len r)).
    Proof. intros H Hv. destruct (rst_ring s m H) as (n & R). exact (ring_peek s r o n v m R (proj2 H) Hv). Qed.
    Lemma rst_poke s m v b : rst s m -> 0 <= v < 2 * ra_len r ->
      exists s', wpoke t (ra_ptr r + v) b s = (Ret tt, s') /\ rst s' (upd m (v mod ra_len r) b) /\ run_sets s s'.
    Proof.
      intros H Hv. destruct (rst_ring s m H) as (n & R). pose proof (ring_poke s r o n v b R Hv) as E.
      set (w' := stored (n_w s) o (v mod ra_len r) b) in *. exists (with_w s w').
      assert (Ea : act_step t (ASet k v b) (g_set g s) = (Ret GNone, g_set g (with_w s w'))).
      { cbn [act_step g_tab g_set g_s]. rewrite Hk. unfold wring_set, lift.
        rewrite (proj2 (Z.leb_le 0 v)), (proj2 (Z.ltb_lt v (2 * ra_len r))) by lia. cbn [andb]. rewrite E. reflexivity. }
      split; [|split; [split|split]].
      - unfold wpoke, lift. rewrite (store_any _ _ _ _ _ E). reflexivity.
      - destruct (step_spec t Ht (ASet k v b) (g_set g s) Logic.I (proj1 H)) as (X & T & Y & S1). rewrite Ea in S1. exact (st_ok _ _ _ _ _ _ _ S1).
      - intros i Hi. cbn [n_w with_w]. unfold w', stored. cbn. unfold put. rewrite Z.eqb_refl. cbn. unfold upd.
        destruct (i =? v mod ra_len r); [reflexivity|]. apply (proj2 H), Hi.
      - exists [ASet k v b]. split; [constructor; [exists v, b; reflexivity|constructor]|]. cbn [tidy_run act_run]. rewrite Ea. cbn [snd g_s g_set].
        split; [|reflexivity]. split; [exact Logic.I|]. split; [|split; [intros k0 v0; discriminate|exact Logic.I]].
        exists []. split; [reflexivity|]. intros (a & [[]|[]]).
      - exists w'. split; [reflexivity|]. apply stored_in.
    Qed.

    Lemma wring_call_spec v s m c : h_alloc (HRing v) = r -> h_fit t (HRing v) -> rst s m -> rop_ok t c ->
      agrees t win (k_ptr v) (k_len v) rst run_sets s (ring_step t (abs v m) c) (kring_step t win (wpeek t) (wpoke t) c v s).
    Proof.
      intros Er F H Hc. destruct (rst_ring s m H) as (n & R). pose proof (ro_n _ _ _ _ _ R). pose proof (ro_len _ _ _ _ _ R).
      pose proof (ro_low _ _ _ _ _ R). pose proof (ro_high _ _ _ _ _ R).
      assert (E1 : ra_ptr r = k_ptr v) by (rewrite <- Er; reflexivity). assert (E2 : ra_len r = k_len v) by (rewrite <- Er; reflexivity).
      rewrite ?E1, ?E2 in *. apply step_agrees; try assumption; try nia.
      - intros s0 m0 v0 Hs. pose proof (rst_peek s0 m0 v0) as K. rewrite E1, E2 in K. exact (K Hs).
      - intros s0 m0 v0 b0 Hs. pose proof (rst_poke s0 m0 v0 b0) as K. rewrite E1, E2 in K. exact (K Hs).
      - exact rs_refl.
      - exact rs_trans.
    Qed.
    Lemma winf_call_spec v s m c : h_alloc (HInf v) = r -> h_fit t (HInf v) -> rst s m -> irop_args t c ->
      iagrees t win (ki_ptr v) (ki_len v) rst run_sets s (iring_step t (iabs v m) c) (kiring_step t win (wpeek t) (wpoke t) c v s).
    Proof.
      intros Er F H Hc. destruct (rst_ring s m H) as (n & R). pose proof (ro_n _ _ _ _ _ R). pose proof (ro_len _ _ _ _ _ R).
      pose proof (ro_low _ _ _ _ _ R). pose proof (ro_high _ _ _ _ _ R).
      assert (E1 : ra_ptr r = ki_ptr v) by (rewrite <- Er; reflexivity). assert (E2 : ra_len r = ki_len v) by (rewrite <- Er; reflexivity).
      rewrite ?E1, ?E2 in *. apply istep_agrees; try assumption; try nia.
      - intros s0 m0 v0 Hs. pose proof (rst_peek s0 m0 v0) as K. rewrite E1, E2 in K. exact (K Hs).
      - intros s0 m0 v0 b0 Hs. pose proof (rst_poke s0 m0 v0 b0) as K. rewrite E1, E2 in K. exact (K Hs).
      - exact rs_refl.
      - exact rs_trans.
    Qed.
  End Ring.

  (** What the call does, whatever its answer. *)
  Lemma wring_call g k v o s m c x v' s' : g_tab g k = Some (TRing (h_alloc (HRing v)) o) -> h_fit t (HRing v) ->
    rst g (h_alloc (HRing v)) o s m -> rop_ok t c -> kring_step t win (wpeek t) (wpoke t) c v s = (x, (v', s')) ->
    h_fit t (HRing v') /\ h_alloc (HRing v') = h_alloc (HRing v) /\ run_sets g k o s s' /\
    (exists m', rst g (h_alloc (HRing v)) o s' m') /\ (x = Panic \/ exists y, x = Ret y).
  Proof.
    intros Hk F H Hc E. pose proof (wring_call_spec g k _ o Hk v s m c eq_refl F H Hc) as A. rewrite E in A. unfold agrees, agr in A.
    assert (K : fit t (k_ptr v) (k_len v) v' /\ run_sets g k o s s' /\ (exists m', rst g (h_alloc (HRing v)) o s' m') /\ (x = Panic \/ exists y, x = Ret y)).
    { destruct (ring_step t (abs v m) c) as [[r1 y]|e| | |]; try contradiction A.
      - destruct A as (k1 & w1 & [= -> -> ->] & _ & A2 & A3 & A4). eauto 8.
      - destruct A as (k1 & w1 & m1 & [= -> -> ->] & A2 & A3 & A4). eauto 8. }
    clear A. destruct K as (K1 & K2 & K3 & K4). pose proof K1 as (E1 & E2 & _).
    split; [cbn; rewrite E1, E2; exact K1|]. split; [cbn; rewrite E1, E2; reflexivity|]. auto.
  Qed.
  Lemma winf_call g k v o s m c x v' s' : g_tab g k = Some (TRing (h_alloc (HInf v)) o) -> h_fit t (HInf v) ->
    rst g (h_alloc (HInf v)) o s m -> irop_args t c -> kiring_step t win (wpeek t) (wpoke t) c v s = (x, (v', s')) ->
    h_fit t (HInf v') /\ h_alloc (HInf v') = h_alloc (HInf v) /\ run_sets g k o s s' /\
    (exists m', rst g (h_alloc (HInf v)) o s' m') /\ (x = Panic \/ exists y, x = Ret y).
  Proof.
    intros Hk F H Hc E. pose proof (winf_call_spec g k _ o Hk v s m c eq_refl F H Hc) as A. rewrite E in A. unfold iagrees, agr in A.
    assert (K : ifit t (ki_ptr v) (ki_len v) v' /\ run_sets g k o s s' /\ (exists m', rst g (h_alloc (HInf v)) o s' m') /\ (x = Panic \/ exists y, x = Ret y)).
    { destruct (iring_step t (iabs v m) c) as [[r1 y]|e| | |]; try contradiction A.
      - destruct A as (k1 & w1 & [= -> -> ->] & _ & A2 & A3 & A4). eauto 8.
      - destruct A as (k1 & w1 & m1 & [= -> -> ->] & A2 & A3 & A4). eauto 8. }
    clear A. destruct K as (K1 & K2 & K3 & K4). pose proof K1 as (E1 & E2 & _).
    split; [cbn; rewrite E1, E2; exact K1|]. split; [cbn; rewrite E1, E2; reflexivity|]. auto.
  Qed.
  (** The bytes a ring has. *)
  Lemma rst_now g r o : prog_ok t g -> rst g r o (g_s g) (o_data (w_obj (n_w (g_s g)) o)).
  Proof. intros H. split; [destruct g; exact H|]. intros v _. reflexivity. Qed.

  (** ** A private thing during calls that do not touch it *)
  Lemma kept_run hs : forall g k x, Forall (act_ok t) hs -> Forall (fun a => ~ touches a k) hs -> prog_ok t g -> g_tab g k = Some x ->
    private_thing x = true ->
    exists x', g_tab (act_run t hs g) k = Some x' /\ same_thing x x' /\ forall i, reading t (act_run t hs g) k i = reading t g k i.
  Proof.
    induction hs as [|a hs IH]; intros g k x F N Hg Hk Hp.
    - exists x. split; [exact Hk|]. split; [apply same_thing_refl|]. reflexivity.
    - apply Forall_cons_iff in F as [Fa F]. apply Forall_cons_iff in N as [Na N]. cbn [act_run].
      destruct (private_kept t Ht a g k x Fa Hg Hk Hp Na) as (x1 & H1 & S1 & R1). cbv zeta in *.
      destruct (step_spec t Ht a g Fa Hg) as (X & T & Y & St).
      destruct (IH _ k x1 F N (st_ok _ _ _ _ _ _ _ St) H1) as (x2 & H2 & S2 & R2).
      { destruct x as [v|r o], x1 as [v1|r1 o1]; cbn in *; try contradiction; [destruct S1 as (_ & _ & _ & _ & ->); exact Hp|reflexivity]. }
      exists x2. split; [exact H2|]. split; [|intros i; rewrite R2; apply R1].
      destruct x as [v|r o], x1 as [v1|r1 o1], x2 as [v2|r2 o2]; cbn in *; try contradiction.
      + destruct S1 as (? & ? & ? & ? & ?), S2 as (? & ? & ? & ? & ?). repeat split; congruence.
      + destruct S1 as (-> & ->). exact S2.
  Qed.
  Lemma ring_reading g k r o v : prog_ok t g -> g_tab g k = Some (TRing r o) -> 0 <= v < ra_len r ->
    reading t g k v = Ret (GByte (o_data (w_obj (n_w (g_s g)) o) v)).
  Proof.
    intros Hg Hk Hv. pose proof (po_thing _ _ Hg _ _ Hk) as Tk. rewrite (reading_eq t Ht g k _ v Hk Tk). destruct Tk as (n & R). cbn [size_of addr_of].
    rewrite (proj2 (Z.leb_le 0 v)), (proj2 (Z.ltb_lt v (2 * ra_len r))) by lia. cbn [andb].
    rewrite (ring_load t Ht _ _ _ _ v R) by lia. rewrite Z.mod_small by lia. reflexivity.
  Qed.
  Lemma kept_ring hs g k r o m : Forall (act_ok t) hs -> Forall (fun a => ~ touches a k) hs -> prog_ok t g -> g_tab g k = Some (TRing r o) ->
    holding (g_s g) r o m -> g_tab (act_run t hs g) k = Some (TRing r o) /\ holding (g_s (act_run t hs g)) r o m.
  Proof.
    intros F N Hg Hk H. destruct (kept_run hs g k _ F N Hg Hk eq_refl) as ([v'|r' o'] & Hk' & Sx & Rd); [contradiction Sx|].
    destruct Sx as [-> ->]. split; [exact Hk'|]. intros v Hv. specialize (Rd v).
    rewrite (ring_reading _ _ _ _ _ Hg Hk Hv), (ring_reading _ _ _ _ _ (run_ok t Ht hs g Hg F) Hk' Hv) in Rd.
    injection Rd as ->. apply H, Hv.
  Qed.

  (** ** Every call is a list of calls of WinMapModel.v *)
  Record traced (c : wpcall) (p p' : wproc) (hs : list act) : Prop := {
    tr_run : wp_g p' = act_run t hs (wp_g p);
    tr_ok : Forall (act_ok t) hs;
    tr_touch : forall k, ~ wp_touches c k -> Forall (fun a => ~ touches a k) hs;
    tr_rings : forall k h, wp_ring p k = Some h -> wp_subject c <> Some k -> wp_ring p' k = Some h /\ Forall (fun a => ~ touches a k) hs;
    tr_tidy : wp_tidy t c p -> tidy_run t hs (wp_g p);
    tr_calm : match c with WCall _ _ | WICall _ _ => tidy_run t hs (wp_g p) | _ => True end;
    tr_pok : wpok p'
  }.
  Lemma traced_none c p : wpok p -> traced c p p [].
  Proof. intros K. split; cbn; auto. destruct c; exact Logic.I. Qed.
  (** Rings other than the subject stay. *)
  Lemma others_ok c p p' hs : wpok p -> wp_g p' = act_run t hs (wp_g p) -> Forall (act_ok t) hs ->
    (forall k h, wp_ring p k = Some h -> wp_subject c <> Some k -> wp_ring p' k = Some h /\ Forall (fun a => ~ touches a k) hs) ->
    (forall k h, wp_ring p' k = Some h -> (wp_ring p k = Some h /\ wp_subject c <> Some k) \/
       (h_fit t h /\ exists o, g_tab (wp_g p') k = Some (TRing (h_alloc h) o))) -> wpok p'.
  Proof.
    intros [K1 K2] E F O N. split.
    - rewrite E. exact (run_ok t Ht hs _ K1 F).
    - intros k h Hk. destruct (N k h Hk) as [[Hk0 Ns]|H]; [|exact H]. destruct (K2 k h Hk0) as (Fh & o & Ho). split; [exact Fh|]. exists o.
      destruct (O k h Hk0 Ns) as [_ Nt]. rewrite E.
      exact (proj1 (kept_ring hs _ _ _ _ (o_data (w_obj (n_w (g_s (wp_g p))) o)) F Nt K1 Ho (fun _ _ => eq_refl))).
  Qed.

  Lemma new_fit_win pg len : 0 < len -> 2 * len <= 2 ^ t_bits t -> h_fit t (HRing (kring_new pg len)) /\ h_fit t (HInf (kiring_new pg len)).
  Proof.
    intros H1 H2. assert (2 ^ t_bits t <= 2 ^ 64) by (apply Z.pow_le_mono_r; lia). split; cbn [h_fit]; unfold fit, ifit; (split; [reflexivity|]); (split; [reflexivity|]).
    - exists (fun _ => 0), 0. split; cbn [abs kring_new r_len r_rpos r_wpos k_len k_rpos k_wpos]; try lia; reflexivity.
    - cbn [kiring_new ki_rlen ki_wpos ki_len]. lia.
  Qed.

  Lemma ring_not_made a p k h : wpok p -> on_maps p a = true -> wp_ring p k = Some h -> ~ touches a k.
  Proof.
    intros K O Hk T. destruct a; cbn in *; try contradiction; subst k; rewrite Hk in O; discriminate.
  Qed.

  Lemma step_act a p : wpok p -> act_ok t a -> exists hs, traced (WAct a) p (snd (wpstep t (WAct a) p)) hs.
  Proof.
    intros K Ha. cbn [wpstep]. destruct (on_maps p a) eqn:O; [|exists []; apply traced_none, K].
    destruct (act_step t a (wp_g p)) as [r g'] eqn:E. cbn [snd]. exists [a].
    assert (Run : g' = act_run t [a] (wp_g p)) by (cbn; rewrite E; reflexivity).
    assert (Oth : forall k h, wp_ring p k = Some h -> wp_subject (WAct a) <> Some k -> wp_ring p k = Some h /\ Forall (fun a => ~ touches a k) [a]).
    { intros k h Hk _. split; [exact Hk|]. constructor; [|constructor]. exact (ring_not_made a p k h K O Hk). }
    split; cbn [wp_g wp_ring]; auto.
    - intros [Rl Df]. cbn [tidy_run]. split; [exact Ha|]. split; [|auto]. cbn [wpstep] in Rl. rewrite O, E in Rl. cbn [snd wp_g] in Rl.
      rewrite E. exact Rl.
    - apply (others_ok (WAct a) p _ [a] K); cbn [wp_g wp_ring]; auto. intros k h Hk. left. split; [exact Hk|discriminate].
  Qed.

  Lemma step_new c mk hint p : wpok p -> is_usize t hint -> (forall pg len, h_alloc (mk pg len) = {| ra_ptr := pg; ra_len := len |}) ->
    (forall pg len, 0 < len -> 2 * len <= 2 ^ t_bits t -> h_fit t (mk pg len)) ->
    (wpstep t c p = wp_new t mk hint p) -> wp_subject c = None -> (forall k, ~ wp_touches c k) -> match c with WAct _ => False | _ => True end ->
    exists hs, traced c p (snd (wpstep t c p)) hs.
  Proof.
    intros K Hh Ha Hf Ec Sc Tc Ca. exists [ARing hint].
    assert (Run : wp_g (snd (wp_new t mk hint p)) = act_run t [ARing hint] (wp_g p)).
    { cbn [act_run act_step]. unfold wp_new. destruct (win_ring_new t hint (g_s (wp_g p))) as [[a|e| | |] s']; reflexivity. }
    assert (Kc : forall k h, wp_ring p k = Some h -> k <> g_cnt (wp_g p)).
    { intros k h Hk ->. destruct (wk_ring _ K _ _ Hk) as (_ & o & Ho). apply (po_keys _ _ (wk_prog _ K)) in Ho. lia. }
    assert (Oth : forall k h, wp_ring p k = Some h -> wp_subject c <> Some k ->
      wp_ring (snd (wp_new t mk hint p)) k = Some h /\ Forall (fun a => ~ touches a k) [ARing hint]).
    { intros k h Hk _. split; [|constructor; [intros []|constructor]]. unfold wp_new.
      destruct (win_ring_new t hint (g_s (wp_g p))) as [[a|e| | |] s']; cbn; try exact Hk. rewrite put_other by exact (Kc _ _ Hk). exact Hk. }
    rewrite Ec. split; auto.
    - intros [Rl _]. rewrite Ec in Rl. split; [exact Hh|]. split; [|split; [intros k v; discriminate|exact Logic.I]].
      rewrite Run in Rl. exact Rl.
    - destruct c; try exact Logic.I; discriminate Sc.
    - apply (others_ok c p _ [ARing hint] K Run); auto. intros k h. pose proof (wk_prog _ K) as Hg.
      unfold wp_new. destruct (win_ring_new t hint (g_s (wp_g p))) as [r s'] eqn:E.
      destruct r as [a|e| | |]; cbn [snd wp_ring wp_g]; intros Hk; try (left; rewrite Sc; split; [exact Hk|discriminate]).
      apply put_cases in Hk as [[-> ->]|[_ Hk]]; [right|left; rewrite Sc; split; [exact Hk|discriminate]].
      destruct (ring_thing t Ht hint _ _ _ (po_wf _ _ Hg) Hh E) as (_ & (n & R) & _).
      pose proof (ro_n _ _ _ _ _ R). pose proof (ro_len _ _ _ _ _ R). pose proof (ro_low _ _ _ _ _ R). pose proof (ro_high _ _ _ _ _ R).
      split; [apply Hf; nia|]. exists (w_next (n_w (g_s (wp_g p)))). cbn [g_add g_tab]. rewrite put_same, Ha. destruct a; reflexivity.
  Qed.

  Lemma step_put c p k h h' o s' : wpok p -> wp_ring p k = Some h -> g_tab (wp_g p) k = Some (TRing (h_alloc h) o) ->
    h_fit t h' -> h_alloc h' = h_alloc h -> run_sets (wp_g p) k o (g_s (wp_g p)) s' -> wp_subject c = Some k -> (forall j, wp_touches c j <-> j = k) ->
    exists hs, traced c p (wp_put p s' k h') hs.
  Proof.
    intros K Hk Ho F Ea [(hs & S1 & S2 & S3) _] Sc Tc. exists hs.
    assert (Eg : g_set (wp_g p) (g_s (wp_g p)) = wp_g p) by (destruct (wp_g p); reflexivity). rewrite Eg in *.
    assert (Nt : forall j, j <> k -> Forall (fun a => ~ touches a j) hs).
    { intros j Nj. refine (Forall_impl _ _ S1). intros a (i & b & ->). cbn. congruence. }
    assert (Oth : forall j h0, wp_ring p j = Some h0 -> wp_subject c <> Some j -> wp_ring (wp_put p s' k h') j = Some h0 /\ Forall (fun a => ~ touches a j) hs).
    { intros j h0 Hj N. rewrite Sc in N. assert (j <> k) by congruence. split; [|auto]. cbn. rewrite put_other by assumption. exact Hj. }
    split; auto.
    - exact (tidy_run_ok hs _ S2).
    - intros j N. apply Nt. intros ->. apply N, Tc. reflexivity.
    - destruct c; exact S2 || exact Logic.I.
    - apply (others_ok c p (wp_put p s' k h') hs K S3 (tidy_run_ok hs _ S2)); auto. intros j h0 Hj. cbn in Hj. apply put_cases in Hj as [[-> ->]|[N Hj]].
      + right. split; [exact F|]. exists o. cbn. rewrite Ea. exact Ho.
      + left. split; [exact Hj|]. rewrite Sc. congruence.
  Qed.

  Lemma step_drop k p : wpok p -> exists hs, traced (WDrop k) p (snd (wpstep t (WDrop k) p)) hs.
  Proof.
    intros K. cbn [wpstep]. destruct (wp_ring p k) as [h|] eqn:Hk; [|exists []; apply traced_none, K]. exists [ADrop k].
    destruct (wk_ring _ K _ _ Hk) as (F & o & Ho).
    destruct (win_ring_drop t (h_alloc h) (g_s (wp_g p))) as [r s'] eqn:E. cbn [snd].
    assert (Run : g_put (wp_g p) s' k None = act_run t [ADrop k] (wp_g p)).
    { cbn [act_run act_step]. rewrite Ho, E. destruct r; reflexivity. }
    assert (Oth : forall j h0, wp_ring p j = Some h0 -> wp_subject (WDrop k) <> Some j ->
      put (wp_ring p) k None j = Some h0 /\ Forall (fun a => ~ touches a j) [ADrop k]).
    { intros j h0 Hj N. cbn in N. rewrite put_other by congruence. split; [exact Hj|]. constructor; [cbn; congruence|constructor]. }
    split; cbn [wp_g wp_ring]; auto.
    - constructor; [exact Logic.I|constructor].
    - intros [Rl _]. split; [exact Logic.I|]. split; [|split; [|exact Logic.I]].
      + cbn [wpstep] in Rl. rewrite Hk, E in Rl. cbn [snd wp_g] in Rl. rewrite Run in Rl. exact Rl.
      + intros k0 v [= <-] H. congruence.
    - apply (others_ok (WDrop k) p {| wp_g := g_put (wp_g p) s' k None; wp_ring := put (wp_ring p) k None |} [ADrop k] K Run); auto; [constructor; [exact Logic.I|constructor]|]. cbn [wp_ring]. intros j h0 Hj.
      unfold put in Hj. destruct (Z.eqb_spec j k); [discriminate|]. left. split; [exact Hj|]. cbn. congruence.
  Qed.

  Lemma wpstep_traced c p : wpok p -> wpcall_ok t c -> exists hs, traced c p (snd (wpstep t c p)) hs.
  Proof.
    intros K Hc. destruct c as [a|hint|hint|k o|k o|k]; cbn [wpcall_ok] in Hc.
    - exact (step_act a p K Hc).
    - apply (step_new (WRing hint) (fun ptr len => HRing (kring_new ptr len)) hint p); auto. intros. apply new_fit_win; assumption.
    - apply (step_new (WInf hint) (fun ptr len => HInf (kiring_new ptr len)) hint p); auto. intros. apply new_fit_win; assumption.
    - cbn [wpstep]. destruct (wp_ring p k) as [[v|v]|] eqn:Hk; try (exists []; apply traced_none, K).
      destruct (wk_ring _ K _ _ Hk) as (F & ob & Ho).
      destruct (kring_step t win (wpeek t) (wpoke t) o v (g_s (wp_g p))) as [x [v' s']] eqn:E. cbn [snd].
      destruct (wring_call _ _ _ _ _ _ _ _ _ _ Ho F (rst_now _ _ _ (wk_prog _ K)) Hc E) as (F' & Ea & Rs & _).
      apply (step_put (WCall k o) p k (HRing v) (HRing v') ob s' K Hk Ho F' Ea Rs eq_refl). intros j. cbn. split; congruence.
    - cbn [wpstep]. destruct (wp_ring p k) as [[v|v]|] eqn:Hk; try (exists []; apply traced_none, K).
      destruct (wk_ring _ K _ _ Hk) as (F & ob & Ho).
      destruct (kiring_step t win (wpeek t) (wpoke t) o v (g_s (wp_g p))) as [x [v' s']] eqn:E. cbn [snd].
      destruct (winf_call _ _ _ _ _ _ _ _ _ _ Ho F (rst_now _ _ _ (wk_prog _ K)) Hc E) as (F' & Ea & Rs & _).
      apply (step_put (WICall k o) p k (HInf v) (HInf v') ob s' K Hk Ho F' Ea Rs eq_refl). intros j. cbn. split; congruence.
    - exact (step_drop k p K).
  Qed.
  Lemma wpstart_ok s : fresh_start s -> wpok (wp_fresh s).
  Proof. intros Fs. split; [exact (proj1 (start_ok t s Fs))|]. intros k h Hk. discriminate Hk. Qed.
  Lemma wpreached_ok p : wpreached t p -> wpok p.
  Proof.
    induction 1 as [s Fs|p c R IH Hc]; [apply wpstart_ok, Fs|]. destruct (wpstep_traced c p IH Hc) as (hs & T). exact (tr_pok _ _ _ _ T).
  Qed.
End Proc.
