(** Lemmas behind the properties of calls in progress on Windows: what a call
    that was interrupted any number of times ends with. *)
From Coq Require Import Lia.
From Verif Require Import Base Spec ErrorModel RingSpec RingModel SizeModel OsModel MapModel MapSpec RingMapModel RingMapSpec SizeProofs OsProofs
  MapProofs MapCreate MapOps MirrorProofs RingMapClaims RingProofs IRingProofs RingWeak SeqProofs MemRingModel MemRingProofs ApiModel ApiSpec ApiProofs ProcModel ProcSpec
  ProcFrame ProcProofs ProcPages ProcClaims
  WinModel WinSpec WinProofs WinClaims WinCalls WinMapModel WinMapSpec WinSpace WinKeep WinMapProofs WinAlloc WinThings WinHist WinLeak WinMapClaims
  WinProcModel WinProcSpec WinProcProofs WinProcClaims WinLedgerSpec WinLedger WinThreadModel WinThreadSpec WinThreadInv WinThreadAdv WinThreadStep WinThreadClaims.

Lemma pair_eq {A B} (a a' : A) (b b' : B) : (a, b) = (a', b') -> a = a' /\ b = b'.
Proof. intros [= -> ->]. auto. Qed.

(** ** A call ends *)
Section Ends.
  Variable t : target.

  Lemma fewer pd w pd' w' : wadvance t pd w = (WMore pd', w') -> (wsteps_left pd' < wsteps_left pd)%nat.
  Proof.
    assert (VF : forall own fd (A : Type) (r : out error A) pd', vfail own fd r = WMore pd' -> wsteps_left pd' = 1%nat).
    { unfold vfail. intros [] fd A r x E'; [injection E' as <-; auto|discriminate E']. }
    assert (TH : forall A (own : bool) fd (x : out error A * win) (next : A -> wpend) k, wthen (vfail own fd) x (fun a => WMore (next a)) = (WMore pd', w') ->
      (forall a, wsteps_left (next a) = S k) -> (wsteps_left pd' < S (S k))%nat).
    { intros A own fd x next k E' N. destruct x as [[a|e| | |] w1]; cbn [wthen] in E'; apply pair_eq in E' as [E' _].
      1: injection E' as <-; rewrite N; lia.
      all: rewrite (VF _ _ _ _ _ E'); lia. }
    assert (KR : forall inf len full h ob more e pd', kretry inf len full h ob more e = WMore pd' -> (wsteps_left pd' < 5 * more + 2)%nat).
    { unfold kretry. intros inf len full h ob [|more] e x E'; injection E' as <-; cbn [wsteps_left]; lia. }
    intros E. destruct pd; cbn [wadvance] in E; cbn [wsteps_left].
    - destruct (lift (io_call (file_open t (op_open o) path)) w) as [[fd|e| | |] w1]; try discriminate E. injection E as <- <-. cbn. lia.
    - exact (TH _ _ _ _ _ 5%nat E (fun _ => eq_refl)).
    - exact (TH _ _ _ _ _ 4%nat E (fun _ => eq_refl)).
    - exact (TH _ _ _ _ _ 3%nat E (fun _ => eq_refl)).
    - destruct (vplan t o flen) as [[[[[mapoff maplen] d] len]|]|e| | |].
      + exact (TH _ _ _ _ _ 2%nat E (fun _ => eq_refl)).
      + discriminate E.
      + apply pair_eq in E as [E _]. rewrite (VF _ _ _ _ _ E). lia.
      + apply pair_eq in E as [E _]. rewrite (VF _ _ _ _ _ E). lia.
      + apply pair_eq in E as [E _]. rewrite (VF _ _ _ _ _ E). lia.
      + apply pair_eq in E as [E _]. rewrite (VF _ _ _ _ _ E). lia.
    - destruct (uadd (E:=error) t len d) as [maplen|e| | |].
      + destruct (handle_view t h MapFileView (snd (protect_pair (op_protect o))) mapoff maplen 0 w) as [r w1]. injection E as <- <-. cbn. lia.
      + apply pair_eq in E as [E _]. rewrite (VF _ _ _ _ _ E). lia.
      + apply pair_eq in E as [E _]. rewrite (VF _ _ _ _ _ E). lia.
      + apply pair_eq in E as [E _]. rewrite (VF _ _ _ _ _ E). lia.
      + apply pair_eq in E as [E _]. rewrite (VF _ _ _ _ _ E). lia.
    - destruct r as [ptr|e| | |]; apply pair_eq in E as [E _]; try discriminate E; rewrite (VF _ _ _ _ _ E); lia.
    - discriminate E.
    - destruct (handle_new t MapAnonymousHandle None (fst (protect_pair (op_protect o))) total w) as [[h|e| | |] w1]; try discriminate E. injection E as <- <-. cbn. lia.
    - destruct (handle_view t h MapAnonymousView (snd (protect_pair (op_protect o))) 0 total 0 w) as [r w1]. injection E as <- <-. cbn. lia.
    - destruct r; discriminate E.
    - destruct (handle_new t RingAllocate None PageReadWrite full w) as [[h|e| | |] w1]; try discriminate E. injection E as <- <-. cbn. lia.
    - destruct (win_call RingAllocate (virtual_alloc t full) w) as [[pg|e| | |] w1]; cbn [wthen] in E; injection E as <- <-; cbn [wsteps_left]; lia.
    - destruct (no_result (virtual_free t pg) w) as [[u|e| | |] w1]; cbn [wthen] in E; injection E as <- <-; cbn [wsteps_left]; lia.
    - destruct (handle_view t h RingPrimary MapReadWrite 0 len pg w) as [[a|e| | |] w1]; apply pair_eq in E as [E _]; try (apply KR in E; lia);
        injection E as <-; cbn [wsteps_left]; lia.
    - destruct (handle_view t h RingSecondary MapReadWrite 0 len (ptr_add t pg len) w) as [[a|e| | |] w1]; injection E as <- <-; cbn [wsteps_left]; lia.
    - destruct (no_result (unmap_view t pg) w) as [[a|e'| | |] w1]; apply pair_eq in E as [E _]; try (apply KR in E; lia);
        injection E as <-; cbn [wsteps_left]; lia.
    - destruct r; discriminate E.
    - destruct (win_call RingDeallocate (unmap_view t (ptr_add t (ra_ptr r) (ra_len r))) w) as [[u|e| | |] w1]; try discriminate E. injection E as <- <-. cbn. lia.
    - destruct (no_result (unmap_view t (ra_ptr r)) w) as [[u|e| | |] w1]; discriminate E.
  Qed.

  (** The pool entry of a thread after an event. *)
  Lemma pool_after e s tid : wstarts e <> Some tid -> e <> WEGo tid -> wt_pool (snd (wtstep t e s)) tid = wt_pool s tid.
  Proof.
    intros N Ng. assert (B : forall i f, i <> tid -> (forall j, j <> i -> wt_pool (snd f) j = wt_pool s j) -> wt_pool (snd (wbegin i s f)) tid = wt_pool s tid).
    { intros i f Ni H. unfold wbegin. destruct (wt_pool s i); [reflexivity|]. apply H. congruence. }
    assert (S : forall i p x j, j <> i -> wt_pool (wset_pool s p i x) j = wt_pool s j) by (intros i p x j H; cbn; apply put_other; exact H).
    destruct e as [c|i mut o path|i mut o fd|i mut o|i inf hint|i k|i]; cbn [wtstep wstarts] in *.
    - destruct (wpstep t c (wt_p s)). reflexivity.
    - apply B; [congruence|]. cbn [snd]. apply S.
    - apply B; [congruence|]. cbn [snd]. apply S.
    - apply B; [congruence|]. destruct (nplan t o) as [[[off len] total]|e| | |]; cbn [snd]; auto.
    - apply B; [congruence|]. destruct (let* len := size_round (E:=error) t (size_alloc t) hint in let* full := umul t 2 len in Ret (len, full)) as [[len full]|e| | |]; cbn [snd]; auto.
    - apply B; [congruence|]. destruct (wp_ring (wt_p s) k), (g_tab (wp_g (wt_p s)) k); cbn [snd]; auto.
    - destruct (wt_pool s i) as [pd|]; [|reflexivity]. unfold wgo.
      destruct (wadvance t pd (g_s (wp_g (wt_p s)))) as [[pd'|mut own o fd ob m|mut o ob m|inf ob pg len|r] w1]; cbn [snd]; apply S; congruence.
  Qed.
  Lemma pool_go s tid pd : wt_pool s tid = Some pd -> wt_pool (snd (wtstep t (WEGo tid) s)) tid = None \/
    exists pd' w', wadvance t pd (g_s (wp_g (wt_p s))) = (WMore pd', w') /\ wtstep t (WEGo tid) s = (WTNone, wset_pool s (wp_set (wt_p s) w') tid (Some pd')).
  Proof.
    intros Hp. cbn [wtstep]. rewrite Hp. unfold wgo.
    destruct (wadvance t pd (g_s (wp_g (wt_p s)))) as [[pd'|mut own o fd ob m|mut o ob m|inf ob pg len|r] w1]; cbn [snd wset_pool wt_pool]; [right; eauto|..]; left; apply put_same.
  Qed.
  Lemma wevent_eq_go e tid : {e = WEGo tid} + {e <> WEGo tid}.
  Proof. destruct e as [c|i mut o path|i mut o fd|i mut o|i inf hint|i k|i]; try (right; discriminate). destruct (Z.eq_dec i tid) as [->|N]; [left; reflexivity|right; congruence]. Qed.
  Lemma own_other tid e h : e <> WEGo tid -> wown_steps tid (e :: h) = wown_steps tid h.
  Proof. intros N. destruct e as [c|i mut o path|i mut o fd|i mut o|i inf hint|i k|i]; try reflexivity. cbn. destruct (Z.eqb_spec i tid); [congruence|reflexivity]. Qed.
  Lemma ends_within h : forall s tid, Forall (fun e => wstarts e <> Some tid) h ->
    (forall pd, wt_pool s tid = Some pd -> (wsteps_left pd <= wown_steps tid h)%nat) -> wt_pool (snd (wtrun t h s)) tid = None.
  Proof.
    induction h as [|e h IH]; intros s tid F L.
    - destruct (wt_pool s tid) as [pd|] eqn:Hp; [|exact Hp]. specialize (L _ eq_refl). destruct pd; cbn in L; lia.
    - apply Forall_cons_iff in F as [Ne F]. rewrite run_snd. apply IH; [exact F|]. intros pd Hp.
      destruct (wevent_eq_go e tid) as [->|N].
      + destruct (wt_pool s tid) as [pd0|] eqn:Hp0.
        * destruct (pool_go s tid pd0 Hp0) as [E|(pd' & w' & E & Es)]; [congruence|]. rewrite Es in Hp. cbn in Hp. rewrite put_same in Hp. injection Hp as <-.
          apply fewer in E. specialize (L _ eq_refl). cbn in L. rewrite Z.eqb_refl in L. lia.
        * cbn [wtstep] in Hp. rewrite Hp0 in Hp. cbn in Hp. congruence.
      + rewrite pool_after in Hp by assumption. specialize (L _ Hp). rewrite own_other in L by exact N. exact L.
  Qed.
End Ends.

Section Claims.
  Variable t : target.
  Hypothesis Ht : good_target t.
  Notation P := (t_page t).
  Notation G := (t_alloc t).
  Let HP : 0 < P.
  Proof. exact (pow2_pos _ (proj1 (proj2 Ht))). Qed.
  Let HG : 0 < G.
  Proof. exact (pow2_pos _ (proj1 (proj2 (proj2 Ht)))). Qed.
  Let HB : 32 <= t_bits t <= 64.
  Proof. destruct Ht as [[E|E] _]; lia. Qed.

  (** ** Following one call through an interleaving *)
  Definition follows (Q : wpend -> Prop) (tid : Z) (s : wtsys) : Prop := forall pd, wt_pool s tid = Some pd -> Q pd.
  Lemma follow s0 (Q : wpend -> Prop) tid :
    (forall s pd pd' s', wf (n_w s) -> stage_ok t s0 s pd -> Q pd -> wadvance t pd s = (WMore pd', s') -> Q pd') ->
    forall h s, wtok t s0 s -> Forall (wev_ok t) h -> Forall (fun e => wstarts e <> Some tid) h -> follows Q tid s -> follows Q tid (snd (wtrun t h s)).
  Proof.
    intros QA. induction h as [|e h IH]; intros s K Fo F S; [exact S|]. apply Forall_cons_iff in Fo as [He Fo], F as [Ne F]. rewrite run_snd.
    apply IH; [exact (event_ok t Ht s0 s e K He)|exact Fo|exact F|]. intros pd Hp. destruct (wevent_eq_go e tid) as [->|N].
    - destruct (wt_pool s tid) as [pd0|] eqn:Hp0.
      + destruct (pool_go t s tid pd0 Hp0) as [E|(pd' & w' & E & Es)]; [congruence|]. rewrite Es in Hp. cbn in Hp. rewrite put_same in Hp. injection Hp as <-.
        pose proof (tk_g _ _ _ K) as Kg. refine (QA _ _ _ _ _ (gk_stage _ _ _ _ Kg _ _ Hp0) (S _ Hp0) E). exact (fo_wf _ _ _ (gk_fam _ _ _ _ Kg)).
      + cbn [wtstep] in Hp. rewrite Hp0 in Hp. cbn in Hp. congruence.
    - rewrite (pool_after t) in Hp by assumption. exact (S _ Hp).
  Qed.

  (** ** A ring *)
  Definition for_ring (inf : bool) (len : Z) (pd : wpend) : Prop :=
    match pd with
    | KCreate i l _ | KReserve i l _ _ _ _ | KRelease i l _ _ _ _ _ | KFirst i l _ _ _ _ _ | KSecond i l _ _ _ _ _ | KUndo i l _ _ _ _ _ _ | KDone i l _ _ _ => i = inf /\ l = len
    | _ => False
    end.
  Lemma adv_ring inf len pd w out w' : for_ring inf len pd -> wadvance t pd w = (out, w') ->
    match out with
    | WMore pd' => for_ring inf len pd'
    | WMadeRing i _ _ l => i = inf /\ l = len
    | WOver r => forall k, r <> WTRing (Ret k)
    | _ => False
    end.
  Proof.
    assert (KR : forall full h ob more e, match kretry inf len full h ob more e with WMore pd' => for_ring inf len pd' | _ => False end).
    { unfold kretry. intros full h ob [|more] e; cbn; auto. }
    destruct pd; cbn [for_ring]; try contradiction; cbn [wadvance]; intros [-> ->] E.
    - destruct (handle_new t RingAllocate None PageReadWrite full w) as [[h|e| | |] w1]; injection E as <- <-; cbn; auto; intros k; discriminate.
    - destruct (win_call RingAllocate (virtual_alloc t full) w) as [[pg|e| | |] w1]; injection E as <- <-; cbn; auto.
    - destruct (no_result (virtual_free t pg) w) as [[u|e| | |] w1]; injection E as <- <-; cbn; auto.
    - destruct (handle_view t h RingPrimary MapReadWrite 0 len pg w) as [[a|e| | |] w1]; apply pair_eq in E as [<- _]; cbn; auto.
      specialize (KR full h ob more e). destruct (kretry inf len full h ob more e); try contradiction KR. exact KR.
    - destruct (handle_view t h RingSecondary MapReadWrite 0 len (ptr_add t pg len) w) as [[a|e| | |] w1]; injection E as <- <-; cbn; auto.
    - destruct (no_result (unmap_view t pg) w) as [[a|e'| | |] w1]; apply pair_eq in E as [<- _]; cbn; auto.
      specialize (KR full h ob more e). destruct (kretry inf len full h ob more e); try contradiction KR. exact KR.
    - destruct r as [pg|e| | |]; apply pair_eq in E as [<- _]; cbn; auto; intros k; discriminate.
  Qed.

  Lemma ring_made s0 s tid inf hint h k s3 : wtok t s0 s -> is_usize t hint -> wt_pool s tid = None ->
    Forall (wev_ok t) h -> Forall (fun e => wstarts e <> Some tid) h ->
    let s2 := snd (wtrun t h (snd (wtstep t (WERing tid inf hint) s))) in
    wtstep t (WEGo tid) s2 = (WTRing (Ret k), s3) ->
    wtok t s0 s3 /\ wp_ring (wt_p s2) k = None /\ exists cap pg o, is_ceil (t_alloc t) hint cap /\ 0 < cap /\ 2 * cap < 2 ^ t_bits t /\
      wp_ring (wt_p s3) k = Some (wnew_held inf pg cap) /\ g_tab (wp_g (wt_p s3)) k = Some (TRing (h_alloc (wnew_held inf pg cap)) o) /\
      rst t (wp_g (wt_p s3)) (h_alloc (wnew_held inf pg cap)) o (g_s (wp_g (wt_p s3))) (fun _ => 0).
  Proof.
    intros K Hh N0 Fo F s2 E. pose proof (event_ok t Ht s0 s (WERing tid inf hint) K Hh) as K1. pose proof (run_wtok t Ht s0 h _ K1 Fo) as K2. fold s2 in K2.
    pose proof (event_ok t Ht s0 s2 (WEGo tid) K2 Logic.I) as K3. rewrite E in K3. cbn [snd] in K3. split; [exact K3|].
    pose proof (round_cases t Ht hint Hh) as Rc.
    assert (X : follows (fun pd => exists len, size_round (E:=error) t (size_alloc t) hint = Ret len /\ for_ring inf len pd) tid s2).
    { refine (follow s0 _ tid _ h _ K1 Fo F _).
      - intros s' pd pd' s'' _ _ (len & El & Q) A. exists len. split; [exact El|]. exact (adv_ring _ _ _ _ _ _ Q A).
      - intros pd. cbn [wtstep]. unfold wbegin. rewrite N0.
        destruct (size_round (E:=error) t (size_alloc t) hint) as [len|e| | |]; cbn [obind snd]; try congruence.
        destruct (umul (E:=error) t 2 len) as [full|e| | |]; cbn [obind snd wset_pool wt_pool]; try congruence. rewrite put_same. intros [= <-]. exists len. cbn. auto. }
    cbn [wtstep] in E. destruct (wt_pool s2 tid) as [pd|] eqn:Hp; [|discriminate E]. destruct (X pd Hp) as (cap & El & Q). rewrite El in Rc. destruct Rc as [Uc IC].
    pose proof (tk_g _ _ _ K2) as Kg. pose proof (gk_fam _ _ _ _ Kg) as [W So _ _ _ _].
    pose proof (wadvance_ok t Ht s0 _ pd W So (gk_tiled _ _ _ _ Kg) (gk_stage _ _ _ _ Kg _ _ Hp) (gok_item t _ _ _ _ _ Kg Hp)) as A. cbv zeta in A.
    unfold wgo in E. destruct (wadvance t pd (g_s (wp_g (wt_p s2)))) as [x w'] eqn:Ea. cbn [fst snd] in A. pose proof (adv_ring _ _ _ _ _ _ Q Ea) as B.
    destruct x as [pd'|mut own o fd ob m|mut o ob m|i ob pg l|r]; try discriminate E; [|exfalso; injection E as -> _; exact (B k eq_refl)].
    destruct B as [-> ->]. injection E as <- <-. destruct A as [_ Z0].
    assert (Hk3 : g_tab (wp_g (wt_p (wset_pool s2 {| wp_g := g_add (wp_g (wt_p s2)) w' (TRing {| ra_ptr := pg; ra_len := cap |} ob);
        wp_ring := put (wp_ring (wt_p s2)) (g_cnt (wp_g (wt_p s2))) (Some (wnew_held inf pg cap)) |} tid None))) (g_cnt (wp_g (wt_p s2))) = Some (TRing {| ra_ptr := pg; ra_len := cap |} ob))
      by (cbn; apply put_same).
    pose proof (gok_prog t _ _ _ (tk_g _ _ _ K3)) as Pg. destruct (po_thing _ _ Pg _ _ Hk3) as (n & R).
    pose proof (ro_n _ _ _ _ _ R). pose proof (ro_len _ _ _ _ _ R) as L. pose proof (ro_low _ _ _ _ _ R). pose proof (ro_high _ _ _ _ _ R). cbn [ra_ptr ra_len] in *.
    assert (L0 : 0 < cap) by nia.
    assert (Ha : h_alloc (wnew_held inf pg cap) = {| ra_ptr := pg; ra_len := cap |}) by (destruct inf; reflexivity).
    split.
    { destruct (wp_ring (wt_p s2) (g_cnt (wp_g (wt_p s2)))) as [hd|] eqn:Hr; [|reflexivity]. exfalso.
      destruct (tk_ring _ _ _ K2 _ _ Hr) as (_ & o & Ho). pose proof (gk_keys _ _ _ _ Kg _ _ Ho). lia. }
    exists cap, pg, ob. split; [exact (IC L0)|]. split; [exact L0|]. split; [lia|]. split; [cbn; apply put_same|]. rewrite Ha. split; [exact Hk3|].
    split; [exact Pg|]. intros v _. exact (Z0 v).
  Qed.

  Theorem ring_thread s0 s tid hint h k s3 h' xs s4 : wtok t s0 s -> is_usize t hint -> wt_pool s tid = None ->
    Forall (wev_ok t) h -> Forall (fun e => wstarts e <> Some tid) h ->
    wtstep t (WEGo tid) (snd (wtrun t h (snd (wtstep t (WERing tid false hint) s)))) = (WTRing (Ret k), s3) ->
    Forall (wev_ok t) h' -> wtrun t h' s3 = (xs, s4) ->
    exists cap, is_ceil (t_alloc t) hint cap /\
      (history_ok t 0 cap (wcalls_on k (wecalls h')) ->
       q_answers {| q_data := []; q_free := zeros cap |} (wcalls_on k (wecalls h')) (wanswers_on k (wecalls h') (weresults h' xs))).
  Proof.
    intros K Hh N0 Fo F E Fo' Er. destruct (ring_made s0 s tid false hint h k s3 K Hh N0 Fo F E) as (K3 & _ & cap & pg & o & IC & L1 & L2 & Hk & Hg & H).
    exists cap. split; [exact IC|]. intros Ho. cbn [wnew_held] in *. pose proof (make_inv t HB cap (fun _ => 0) L1 ltac:(lia)) as I.
    replace {| q_data := []; q_free := zeros cap |} with (absq (abs (kring_new pg cap) (fun _ => 0)) 0 0).
    - exact (wering_history t Ht s0 h' s3 xs s4 k (kring_new pg cap) o _ 0 0 0 K3 Fo' Er Hk Hg H I ltac:(lia) Ho).
    - unfold absq. cbn [abs kring_new r_mem r_len k_len]. rewrite !Z.sub_0_r. rewrite view_zeros by exact L1. reflexivity.
  Qed.
  Theorem inf_thread s0 s tid hint h k s3 h' xs s4 : wtok t s0 s -> is_usize t hint -> wt_pool s tid = None ->
    Forall (wev_ok t) h -> Forall (fun e => wstarts e <> Some tid) h ->
    wtstep t (WEGo tid) (snd (wtrun t h (snd (wtstep t (WERing tid true hint) s)))) = (WTRing (Ret k), s3) ->
    Forall (wev_ok t) h' -> wtrun t h' s3 = (xs, s4) ->
    exists cap, is_ceil (t_alloc t) hint cap /\
      (ihistory_ok t 0 cap (wicalls_on k (wecalls h')) ->
       lq_answers {| lq_tape := zeros cap; lq_len := 0 |} (wicalls_on k (wecalls h')) (wanswers_on k (wecalls h') (weresults h' xs))).
  Proof.
    intros K Hh N0 Fo F E Fo' Er. destruct (ring_made s0 s tid true hint h k s3 K Hh N0 Fo F E) as (K3 & _ & cap & pg & o & IC & L1 & L2 & Hk & Hg & H).
    exists cap. split; [exact IC|]. intros Ho. cbn [wnew_held] in *. pose proof (imake_inv t HB cap (fun _ => 0) L1 L2) as I.
    replace {| lq_tape := zeros cap; lq_len := 0 |} with (abst (iabs (kiring_new pg cap) (fun _ => 0)) 0).
    - exact (weinf_history t Ht s0 h' s3 xs s4 k (kiring_new pg cap) o _ 0 0 K3 Fo' Er Hk Hg H I ltac:(lia) Ho).
    - unfold abst. cbn [iabs kiring_new i_mem i_len i_rlen ki_len ki_rlen]. rewrite view_zeros by exact L1. reflexivity.
  Qed.

  (** ** An anonymous map *)
  Definition for_anon (mut : bool) (o : options) (len : Z) (pd : wpend) : Prop :=
    match pd with
    | NCreate m o' _ l _ | NView m o' _ _ _ l _ | NDone m o' _ _ _ l _ => m = mut /\ o' = o /\ l = len
    | _ => False
    end.
  Lemma adv_anon mut o len pd s x s' : for_anon mut o len pd -> wadvance t pd s = (x, s') ->
    match x with
    | WMore pd' => for_anon mut o len pd'
    | WMadeAnon m o' _ mp => m = mut /\ o' = o /\ m_len mp = len
    | WOver r => forall y, r <> WTMap (Ret y)
    | _ => False
    end.
  Proof.
    destruct pd; cbn [for_anon]; try contradiction; cbn [wadvance]; intros (-> & -> & ->) E.
    - destruct (handle_new t MapAnonymousHandle None (fst (protect_pair (op_protect o))) total s) as [[h|e| | |] s1]; injection E as <- <-; cbn; auto; intros y; discriminate.
    - destruct (handle_view t h MapAnonymousView (snd (protect_pair (op_protect o))) 0 total 0 s) as [r s1]. injection E as <- <-. cbn. auto.
    - destruct r as [ptr|e| | |]; apply pair_eq in E as [<- _]; cbn; auto; intros y; discriminate.
  Qed.
  Lemma alloc_thread s0 s tid mut o h y s3 : wtok t s0 s -> wev_ok t (WEAlloc tid mut o) -> wt_pool s tid = None ->
    Forall (wev_ok t) h -> Forall (fun e => wstarts e <> Some tid) h ->
    let s2 := snd (wtrun t h (snd (wtstep t (WEAlloc tid mut o) s))) in
    wtstep t (WEGo tid) s2 = (WTMap (Ret y), s3) ->
    walloc_fits t o /\ exists k v, y = GThing k /\ g_tab (wp_g (wt_p s2)) k = None /\ g_tab (wp_g (wt_p s3)) k = Some (TMap v) /\
      walloc_len t o (m_len (v_map v)) /\ (0 < m_len (v_map v) -> m_ptr (v_map v) mod t_page t = op_offset o mod t_page t) /\ v_prot v = op_protect o /\ v_mut v = mut /\ v_anon v = true /\
      forall i, 0 <= i < m_len (v_map v) -> exists b, reading t (wp_g (wt_p s3)) k i = Ret (GByte b) /\ (win_shares (op_protect o) = true -> b = 0).
  Proof.
    intros K He N0 Fo F s2 E. pose proof (event_ok t Ht s0 s _ K He) as K1. pose proof (run_wtok t Ht s0 h _ K1 Fo) as K2. fold s2 in K2.
    pose proof (event_ok t Ht s0 s2 (WEGo tid) K2 Logic.I) as K3. rewrite E in K3. cbn [snd] in K3. destruct He as [Oo Fit].
    assert (X : follows (fun pd => exists off len total, nplan t o = Ret (off, len, total) /\ for_anon mut o len pd) tid s2).
    { refine (follow s0 _ tid _ h _ K1 Fo F _).
      - intros s' pd pd' s'' _ _ (off & len & total & El & Q) A. exists off, len, total. split; [exact El|]. exact (adv_anon _ _ _ _ _ _ _ Q A).
      - intros pd. cbn [wtstep]. unfold wbegin. rewrite N0. destruct (nplan t o) as [[[off len] total]|e| | |]; cbn [snd wset_pool wt_pool]; try congruence.
        rewrite put_same. intros [= <-]. exists off, len, total. cbn. auto. }
    cbn [wtstep] in E. destruct (wt_pool s2 tid) as [pd|] eqn:Hp; [|discriminate E]. destruct (X pd Hp) as (off & len & total & El & Q).
    destruct (nplan_len t Ht o off len total Oo Fit El) as (_ & Fits & Len). split; [exact Fits|].
    pose proof (tk_g _ _ _ K2) as Kg. pose proof (gk_fam _ _ _ _ Kg) as [W So _ _ _ _].
    pose proof (wadvance_ok t Ht s0 _ pd W So (gk_tiled _ _ _ _ Kg) (gk_stage _ _ _ _ Kg _ _ Hp) (gok_item t _ _ _ _ _ Kg Hp)) as A. cbv zeta in A.
    unfold wgo in E. destruct (wadvance t pd (g_s (wp_g (wt_p s2)))) as [x w'] eqn:Ea. cbn [fst snd] in A. pose proof (adv_anon _ _ _ _ _ _ _ Q Ea) as B.
    destruct x as [pd'|m own o' fd ob mp|m o' ob mp|i ob pg l|r]; try contradiction B; try discriminate E; [|exfalso; injection E as -> _; exact (B y eq_refl)].
    destruct B as (-> & -> & Lm). injection E as <- <-. destruct A as [_ Z0]. exists (g_cnt (wp_g (wt_p s2))). eexists. split; [reflexivity|].
    split. { destruct (g_tab (wp_g (wt_p s2)) (g_cnt (wp_g (wt_p s2)))) as [x|] eqn:Hx; [|reflexivity]. pose proof (gk_keys _ _ _ _ Kg _ _ Hx). lia. }
    assert (Hk : g_tab (g_add (wp_g (wt_p s2)) w' (made_anon t mut o ob mp)) (g_cnt (wp_g (wt_p s2))) = Some (made_anon t mut o ob mp)) by (cbn; apply put_same).
    split; [exact Hk|]. cbn [v_map v_prot v_mut v_anon]. rewrite Lm. split; [exact Len|].
    pose proof (gok_prog t _ _ _ (tk_g _ _ _ K3)) as Pg. cbn [wset_pool wt_p wp_g] in Pg. pose proof (po_thing _ _ Pg _ _ Hk) as Tk. cbn [made_anon thing_ok] in Tk.
    split.
    { intros L0. assert (C : 0 < m_ptr mp mod P + m_len mp) by (pose proof (Z.mod_pos_bound (m_ptr mp) P HP); lia).
      destruct (bk_off _ _ _ _ _ _ _ (mo_back _ _ _ Tk C)) as [_ Ba]. cbn [v_map v_off m_ptr as_posix t_page] in Ba. rewrite <- Ba. apply Z.mod_mod. lia. }
    do 3 (split; [reflexivity|]). intros i Hi.
    destruct (file_read t Ht _ _ _ i Pg Hk) as (b & Rb & Sb); cbn [v_map v_prot v_off v_obj]; [lia| |].
    - cbn. destruct (mo_anon _ _ _ Tk eq_refl) as [_ Ms]. cbn in Ms. lia.
    - exists b. split; [exact Rb|]. intros Sh. rewrite (Sb Sh). apply Z0.
  Qed.

  (** ** A map of a file *)
  Lemma vplan_len o L : options_ok t o -> is_usize t L ->
    (vplan t o L = Ret None /\ out_of_file (op_len o) (op_offset o) L) \/
    exists mapoff maplen d len, vplan t o L = Ret (Some (mapoff, maplen, d, len)) /\ ~ out_of_file (op_len o) (op_offset o) L /\ right_len (op_len o) (op_offset o) L len.
  Proof.
    intros Oo HL. destruct (vplan_spec t Ht o L Oo HL) as [E|(len & E & H0 & H1)]; [left; split; [exact E|]|right; do 4 eexists; split; [exact E|]].
    - destruct Oo as (_ & Ol & Oo). unfold vplan in E. cbv zeta in E. destruct (Z.ltb_spec L (op_offset o)) as [Lt|Ge]; [left; exact Lt|].
      unfold is_usize in *. unfold usub at 1 in E. rewrite wrap_in in E by lia. cbn [obind] in E.
      destruct (extent_len (op_len o) (L - op_offset o)) as [n|] eqn:El.
      + exfalso. destruct (size_truncate (E:=error) t (size_alloc t) (op_offset o)) as [mo|e| | |]; cbn [obind] in E; try discriminate E.
        destruct (usub (E:=error) t (op_offset o) mo) as [d|e| | |]; cbn [obind] in E; try discriminate E.
        destruct (uadd (E:=error) t n d) as [ml|e| | |]; cbn [obind] in E; discriminate E.
      + right. unfold extent_len in El. destruct (op_len o) as [|n|n|n]; try discriminate El; destruct (Z.ltb_spec (L - op_offset o) n); try discriminate El; exists n; split; auto; lia.
    - destruct Oo as (_ & Ol & Oo). unfold vplan in E. cbv zeta in E. destruct (Z.ltb_spec L (op_offset o)) as [Lt|Ge]; [discriminate E|].
      unfold is_usize in *. unfold usub at 1 in E. rewrite wrap_in in E by lia. cbn [obind] in E.
      destruct (extent_len (op_len o) (L - op_offset o)) as [n|] eqn:El; [|discriminate E].
      assert (n = len).
      { destruct (size_truncate (E:=error) t (size_alloc t) (op_offset o)) as [mo|e| | |]; cbn [obind] in E; try discriminate E.
        destruct (usub (E:=error) t (op_offset o) mo) as [d|e| | |]; cbn [obind] in E; try discriminate E.
        destruct (uadd (E:=error) t n d) as [ml|e| | |]; cbn [obind] in E; try discriminate E. congruence. }
      subst n. unfold out_of_file, right_len. unfold extent_len in El.
      destruct (op_len o) as [|n|n|n]; try destruct (Z.ltb_spec (L - op_offset o) n); try discriminate El; injection El as <-; (split; [|lia]);
        intros [H'|(m & [M|M] & H')]; try discriminate M; try lia; injection M as <-; lia.
  Qed.

  Section Map.
    Variables (mut own : bool) (o : options) (fd len : Z).
    Hypothesis Hlen : is_usize t len.
    Let cut := if op_truncate o then 0 else len.
    Let L := final_len (op_truncate o) (op_resize o) len.
    Definition for_map (pd : wpend) : Prop :=
      match pd with
      | VCut m ow o' fd' l => m = mut /\ ow = own /\ o' = o /\ fd' = fd /\ l = len
      | VSize m ow o' fd' l => m = mut /\ ow = own /\ o' = o /\ fd' = fd /\ l = cut
      | VCreate m ow o' fd' l => m = mut /\ ow = own /\ o' = o /\ fd' = fd /\ l = L
      | VView m ow o' fd' _ _ _ _ n | VDone m ow o' fd' _ _ _ n _ => m = mut /\ ow = own /\ o' = o /\ fd' = fd /\
          ~ out_of_file (op_len o) (op_offset o) L /\ right_len (op_len o) (op_offset o) L n
      | VClose fd' r => fd' = fd /\ forall y, r <> Ret y
      | _ => False
      end.
    Lemma for_map_fail {A} (r : out error A) : (forall a, r <> Ret a) -> match vfail own fd r with
      | WMore pd' => for_map pd' | WOver x => forall y, x <> WTMap (Ret y) | _ => False end.
    Proof.
      unfold vfail. intros N. destruct own; [cbn; split; [reflexivity|]; intros y|intros y]; destruct r; try discriminate; exfalso; exact (N a eq_refl).
    Qed.
    Definition map_out (s : win) (x : woutcome) (s' : win) : Prop :=
      match x with
      | WMore pd' => for_map pd'
      | WMadeFile m ow o' fd' ob mp => m = mut /\ ow = own /\ o' = o /\ fd' = fd /\
          ~ out_of_file (op_len o) (op_offset o) L /\ right_len (op_len o) (op_offset o) L (m_len mp)
      | WOver x => forall y, x = WTMap (Ret y) -> out_of_file (op_len o) (op_offset o) L /\ y = (if own then GFile None fd else GNone) /\ s' = s
      | _ => False
      end.
    Lemma map_out_fail {A} (r : out error A) s s' : (forall a, r <> Ret a) -> map_out s (vfail own fd r) s'.
    Proof. intros N. pose proof (for_map_fail r N) as H. unfold map_out. destruct (vfail own fd r); try exact H; try contradiction H. intros y E. destruct (H y E). Qed.
    Lemma adv_map s0 pd s x s' : wf (n_w s) -> stage_ok t s0 s pd -> for_map pd -> wadvance t pd s = (x, s') -> map_out s x s'.
    Proof.
      assert (U0 : is_usize t 0) by (split; [lia|apply Z.pow_pos_nonneg; lia]).
      intros W PO Q E. destruct pd; try contradiction Q; cbn [wadvance] in E.
      - destruct Q as (-> & -> & -> & -> & ->).
        destruct (lift (if op_truncate o && (0 <? len) then resize_to t fd 0 else sret len) s) as [r s1] eqn:Er.
        apply lift_inv in Er as (w1 & Er & ->).
        assert (X : forall l, r = Ret l -> l = cut).
        { intros l ->. unfold cut. destruct (op_truncate o && (0 <? len)) eqn:C.
          - apply (resize_keeps t Ht fd 0 s _ _ W U0) in Er as [_ Er]. apply andb_true_iff in C as [-> _]. exact (Er l eq_refl).
          - injection Er as <- _. destruct (op_truncate o); [|reflexivity]. apply Z.ltb_ge in C. unfold is_usize in Hlen. lia. }
        destruct r as [l|e| | |]; cbn [wthen] in E; injection E as <- <-; try (apply map_out_fail; discriminate). cbn. rewrite (X l eq_refl). auto 6.
      - destruct Q as (-> & -> & -> & -> & ->). destruct PO as (Oo & U). pose proof (proj1 Oo) as Or.
        destruct (lift (vsize t o fd cut) s) as [r s1] eqn:Er. apply lift_inv in Er as (w1 & Er & ->).
        assert (X : forall l, r = Ret l -> l = L).
        { assert (R : forall sz, is_usize t sz -> resize_to t fd sz (n_w s) = (r, w1) -> sz = L -> forall l, r = Ret l -> l = L).
          { intros sz U' E' E0 l ->. apply (resize_keeps t Ht fd sz s _ _ W U') in E' as [_ E']. rewrite (E' l eq_refl). exact E0. }
          assert (R' : sret (E:=error) cut (n_w s) = (r, w1) -> cut = L -> forall l, r = Ret l -> l = L).
          { intros E' E0 l ->. injection E' as <- _. exact E0. }
          unfold vsize in Er. unfold L, final_len in *. fold cut in R, R' |- *. destruct (op_resize o) as [|sz|sz|sz]; cbn [extent_ok] in Or.
          - exact (R' Er eq_refl).
          - exact (R sz Or Er eq_refl).
          - destruct (Z.ltb_spec cut sz); [exact (R sz Or Er ltac:(lia))|exact (R' Er ltac:(lia))].
          - destruct (Z.ltb_spec sz cut); [exact (R sz Or Er ltac:(lia))|exact (R' Er ltac:(lia))]. }
        destruct r as [l|e| | |]; cbn [wthen] in E; injection E as <- <-; try (apply map_out_fail; discriminate). cbn. rewrite (X l eq_refl). auto 6.
      - destruct Q as (-> & -> & -> & -> & ->). destruct PO as (Oo & U). destruct (vplan_len o L Oo U) as [[Ep NO]|(mapoff & maplen & d & n & Ep & NO & RL)]; rewrite Ep in E.
        + injection E as <- <-. intros y [= <-]. auto.
        + destruct (handle_new t MapFileHandle (Some fd) (fst (protect_pair (op_protect o))) 0 s) as [[h|e| | |] s1]; cbn [wthen] in E; injection E as <- <-;
            try (apply map_out_fail; discriminate). cbn. auto 8.
      - destruct Q as (-> & -> & -> & -> & NO & RL). destruct (uadd (E:=error) t len0 d) as [ml|e| | |]; try (injection E as <- <-; apply map_out_fail; discriminate).
        destruct (handle_view t h MapFileView (snd (protect_pair (op_protect o))) mapoff ml 0 s) as [r s1]. injection E as <- <-. cbn. auto 8.
      - destruct Q as (-> & -> & -> & -> & NO & RL). destruct r as [ptr|e| | |]; apply pair_eq in E as [<- _]; try (apply map_out_fail; discriminate). cbn. auto 8.
      - destruct Q as [-> Q]. apply pair_eq in E as [<- _]. intros y [= ->]. destruct (Q y eq_refl).
    Qed.
  End Map.

  Lemma map_thread s0 s tid mut own o fd f h y s3 : wtok t s0 s -> wt_pool s tid = Some (VStat mut own o fd) -> w_fd (n_w (g_s (wp_g (wt_p s)))) fd = Some f ->
    Forall (wev_ok t) h -> Forall (fun e => wstarts e <> Some tid) h ->
    let s2 := snd (wtrun t h (snd (wtstep t (WEGo tid) s))) in
    wtstep t (WEGo tid) s2 = (WTMap (Ret y), s3) ->
    let L := final_len (op_truncate o) (op_resize o) (as_usize t (o_size (w_obj (n_w (g_s (wp_g (wt_p s)))) (fd_obj f)))) in
    (out_of_file (op_len o) (op_offset o) L /\ y = (if own then GFile None fd else GNone) /\ wt_p s3 = wt_p s2) \/
    (~ out_of_file (op_len o) (op_offset o) L /\ exists k v, y = (if own then GFile (Some k) fd else GThing k) /\
       g_tab (wp_g (wt_p s2)) k = None /\ g_tab (wp_g (wt_p s3)) k = Some (TMap v) /\
       right_len (op_len o) (op_offset o) L (m_len (v_map v)) /\ v_off v = op_offset o /\ v_prot v = op_protect o /\ v_mut v = mut /\ v_anon v = false).
  Proof.
    intros K Hp Hf Fo F s2 E. cbv zeta. set (len := as_usize t (o_size (w_obj (n_w (g_s (wp_g (wt_p s)))) (fd_obj f)))).
    assert (Ul : is_usize t len) by (apply Z.mod_pos_bound, Z.pow_pos_nonneg; lia).
    pose proof (event_ok t Ht s0 s (WEGo tid) K Logic.I) as K1. pose proof (run_wtok t Ht s0 h _ K1 Fo) as K2. fold s2 in K2.
    assert (S2 : follows (for_map mut own o fd len) tid s2).
    { refine (follow s0 _ tid _ h _ K1 Fo F _).
      - intros s' pd pd' s'' W So Q A. exact (adv_map mut own o fd len Ul s0 pd s' _ s'' W So Q A).
      - intros pd. cbn [wtstep]. rewrite Hp. unfold wgo. cbn [wadvance].
        destruct (lift (do* l <- io_call (file_len fd); sret (as_usize t l)) (g_s (wp_g (wt_p s)))) as [r s'] eqn:Es. apply lift_inv in Es as (w1 & Es & ->).
        unfold sbind, io_call, file_len in Es. destruct (sys_fstat fd (n_w (g_s (wp_g (wt_p s))))) as [r0 w0] eqn:Ef. apply fstat_spec in Ef as [_ Ef].
        destruct r0 as [l|e| | |]; try contradiction Ef; cbn in Es; injection Es as <- <-; cbn [wthen].
        + destruct Ef as (g & Hg & ->). assert (g = f) by congruence. subst g. cbn. rewrite put_same. intros [= <-]. cbn. auto 6.
        + unfold vfail. destruct own; cbn; rewrite put_same; intros [= <-]. cbn. split; [reflexivity|discriminate]. }
    cbn [wtstep] in E. destruct (wt_pool s2 tid) as [pd|] eqn:Hp2; [|discriminate E]. pose proof (tk_g _ _ _ K2) as Kg. unfold wgo in E.
    destruct (wadvance t pd (g_s (wp_g (wt_p s2)))) as [x s'] eqn:Ea.
    pose proof (adv_map mut own o fd len Ul s0 pd _ x s' (fo_wf _ _ _ (gk_fam _ _ _ _ Kg)) (gk_stage _ _ _ _ Kg _ _ Hp2) (S2 pd Hp2) Ea) as M.
    destruct x as [pd'|m ow o' fd' ob mp|m o' ob mp|i ob pg l|r]; cbn [map_out] in M; try contradiction M; try discriminate E.
    - right. destruct M as (-> & -> & -> & -> & NO & RL). split; [exact NO|]. injection E as <- <-.
      exists (g_cnt (wp_g (wt_p s2))). eexists. split; [reflexivity|].
      split. { destruct (g_tab (wp_g (wt_p s2)) (g_cnt (wp_g (wt_p s2)))) as [x|] eqn:Hx; [|reflexivity]. pose proof (gk_keys _ _ _ _ Kg _ _ Hx). lia. }
      cbn. split; [apply put_same|]. cbn. auto 8.
    - left. injection E as -> <-. destruct (M y eq_refl) as (NO & -> & ->). split; [exact NO|]. split; [reflexivity|]. cbn. destruct (wt_p s2) as [[] ?]. reflexivity.
  Qed.

  (** The object of the map is the one the handle stood for at [CreateFileMapping]. *)
  Definition for_obj (ob : Z) (pd : wpend) : Prop :=
    match pd with VView _ _ _ _ _ b _ _ _ | VDone _ _ _ _ _ b _ _ _ => b = ob | VClose _ r => forall y, r <> Ret y | _ => False end.
  Lemma adv_obj ob pd s x s' : for_obj ob pd -> wadvance t pd s = (x, s') ->
    match x with WMore pd' => for_obj ob pd' | WMadeFile _ _ _ _ b _ => b = ob | WOver r => forall y, r <> WTMap (Ret y) | _ => False end.
  Proof.
    assert (VF : forall (own : bool) fd (A : Type) (r : out error A), (forall a, r <> Ret a) ->
      match vfail own fd r with WMore pd' => for_obj ob pd' | WMadeFile _ _ _ _ b _ => b = ob | WOver r => forall y, r <> WTMap (Ret y) | _ => False end).
    { unfold vfail. intros own fd A r N. destruct own; cbn; intros y; destruct r; try discriminate; exfalso; exact (N a eq_refl). }
    intros Q E. destruct pd; try contradiction Q; cbn [wadvance for_obj] in *.
    - destruct (uadd (E:=error) t len d) as [ml|e| | |]; try (injection E as <- <-; apply VF; discriminate).
      destruct (handle_view t h MapFileView (snd (protect_pair (op_protect o))) mapoff ml 0 s) as [r s1]. injection E as <- <-. exact Q.
    - destruct r as [ptr|e| | |]; apply pair_eq in E as [<- _]; try (apply VF; discriminate). exact Q.
    - apply pair_eq in E as [<- _]. intros y [= ->]. exact (Q y eq_refl).
  Qed.
  Lemma map_object s0 s tid mut own o fd flen f h y s3 : wtok t s0 s -> wt_pool s tid = Some (VCreate mut own o fd flen) -> w_fd (n_w (g_s (wp_g (wt_p s)))) fd = Some f ->
    Forall (wev_ok t) h -> Forall (fun e => wstarts e <> Some tid) h ->
    let s2 := snd (wtrun t h (snd (wtstep t (WEGo tid) s))) in
    wtstep t (WEGo tid) s2 = (WTMap (Ret y), s3) ->
    exists k v, g_tab (wp_g (wt_p s2)) k = None /\ g_tab (wp_g (wt_p s3)) k = Some (TMap v) /\ (y = GThing k \/ exists fd, y = GFile (Some k) fd) /\ v_obj v = fd_obj f /\
      forall i, 0 <= i < m_len (v_map v) -> in_object (wp_g (wt_p s3)) (TMap v) i ->
        exists b, reading t (wp_g (wt_p s3)) k i = Ret (GByte b) /\
          (win_shares (v_prot v) = true -> b = o_data (w_obj (n_w (g_s (wp_g (wt_p s3)))) (fd_obj f)) (v_off v + i)).
  Proof.
    intros K Hp Hf Fo F s2 E. pose proof (event_ok t Ht s0 s (WEGo tid) K Logic.I) as K1. pose proof (run_wtok t Ht s0 h _ K1 Fo) as K2. fold s2 in K2.
    pose proof (event_ok t Ht s0 s2 (WEGo tid) K2 Logic.I) as K3. rewrite E in K3. cbn [snd] in K3.
    assert (S2 : follows (for_obj (fd_obj f)) tid s2).
    { refine (follow s0 _ tid _ h _ K1 Fo F _).
      - intros s' pd pd' s'' _ _ Q A. exact (adv_obj _ _ _ _ _ Q A).
      - assert (VF : forall (A : Type) (r : out error A), (forall a, r <> Ret a) -> forall pd', vfail own fd r = WMore pd' -> for_obj (fd_obj f) pd').
        { unfold vfail. intros A r N pd'. destruct own; [|discriminate]. intros [= <-]. cbn. intros y'; destruct r; try discriminate; exfalso; exact (N a eq_refl). }
        intros pd. cbn [wtstep]. rewrite Hp. unfold wgo. cbn [wadvance]. destruct (vplan t o flen) as [[[[[mapoff maplen] d] n]|]|e| | |].
        + destruct (handle_new t MapFileHandle (Some fd) (fst (protect_pair (op_protect o))) 0 (g_s (wp_g (wt_p s)))) as [[hh|e| | |] s1]; cbn [wthen];
            [cbn; rewrite put_same; intros [= <-]; cbn; unfold fd_objw; rewrite Hf; reflexivity|..];
          match goal with |- context[vfail own fd ?r] => pose proof (VF _ r ltac:(discriminate)) as V; destruct (vfail own fd r) end; cbn; rewrite put_same; try discriminate;
            intros [= <-]; exact (V _ eq_refl).
        + cbn. rewrite put_same. discriminate.
        + match goal with |- context[vfail own fd ?r] => pose proof (VF _ r ltac:(discriminate)) as V; destruct (vfail own fd r) end; cbn; rewrite put_same; try discriminate;
            intros [= <-]; exact (V _ eq_refl).
        + match goal with |- context[vfail own fd ?r] => pose proof (VF _ r ltac:(discriminate)) as V; destruct (vfail own fd r) end; cbn; rewrite put_same; try discriminate;
            intros [= <-]; exact (V _ eq_refl).
        + match goal with |- context[vfail own fd ?r] => pose proof (VF _ r ltac:(discriminate)) as V; destruct (vfail own fd r) end; cbn; rewrite put_same; try discriminate;
            intros [= <-]; exact (V _ eq_refl).
        + match goal with |- context[vfail own fd ?r] => pose proof (VF _ r ltac:(discriminate)) as V; destruct (vfail own fd r) end; cbn; rewrite put_same; try discriminate;
            intros [= <-]; exact (V _ eq_refl). }
    cbn [wtstep] in E. destruct (wt_pool s2 tid) as [pd|] eqn:Hp2; [|discriminate E]. pose proof (tk_g _ _ _ K2) as Kg. unfold wgo in E.
    destruct (wadvance t pd (g_s (wp_g (wt_p s2)))) as [x s'] eqn:Ea. pose proof (adv_obj _ _ _ _ _ (S2 pd Hp2) Ea) as M.
    destruct x as [pd'|m ow o' fd' ob mp|m o' ob mp|i ob pg l|r]; try contradiction M; try discriminate E; [|exfalso; injection E as -> _; exact (M y eq_refl)].
    subst ob. injection E as <- <-. exists (g_cnt (wp_g (wt_p s2))). eexists.
    split. { destruct (g_tab (wp_g (wt_p s2)) (g_cnt (wp_g (wt_p s2)))) as [x|] eqn:Hx; [|reflexivity]. pose proof (gk_keys _ _ _ _ Kg _ _ Hx). lia. }
    assert (Hk : g_tab (g_add (wp_g (wt_p s2)) s' (made_file m o' (fd_obj f) mp)) (g_cnt (wp_g (wt_p s2))) = Some (made_file m o' (fd_obj f) mp)) by (cbn; apply put_same).
    split; [exact Hk|]. split; [destruct ow; eauto|]. cbn [v_obj]. split; [reflexivity|].
    intros i Hi Ho. exact (file_read t Ht _ _ _ i (gok_prog t _ _ _ (tk_g _ _ _ K3)) Hk Hi Ho).
  Qed.
End Claims.
