(** Lemmas behind the properties of calls in progress on macOS: what
    interleavings cannot change, and what a call has made in the end. *)
From Coq Require Import Lia.
From Verif Require Import Base Spec ErrorModel RingSpec RingModel SizeModel SizeProofs SeqProofs OsModel OthersModel MapModel MapSpec OsProofs MapProofs MapCreate MapOps
  ApiModel ApiSpec OthersProofs ApiProofs RingMapModel RingMapSpec MirrorProofs RingMapClaims RingProofs IRingProofs RingWeak MemRingModel MemRingProofs
  ProcModel ProcSpec ProcFrame ProcProofs ProcClaims ThreadModel ThreadSpec ThreadFrame ThreadProofs ThreadInv ThreadClaims ThreadClaims2 ThreadClaims3
  MachModel MachSpec MachProofs MachClaims MachProcModel MachProcSpec MachProcProofs MachThreadModel MachThreadSpec MachThreadFrame MachThreadProofs MachThreadInv MachThreadClaims.

Section Claims.
  Variable t : target.
  Hypothesis Ht : posix_target t.
  Notation P := (t_page t).
  Let Hg : good_target t := proj1 Ht.
  Let HP : 0 < P.
  Proof. exact (pow2_pos _ (proj1 (proj2 Hg))). Qed.
  Let HB : 32 <= t_bits t <= 64.
  Proof. destruct Hg as [[E|E] _]; lia. Qed.

  Lemma mpath_cons e h s s2 : mtpath t s (e :: h) s2 -> mev_ok t s e /\ mtpath t (snd (mtstep t e s)) h s2.
  Proof. intros H. inversion H; subst. auto. Qed.
  Lemma mpath_ok h : forall s s', mok t s -> mtpath t s h s' -> mok t s'.
  Proof.
    induction h as [|e h IH]; intros s s' K H; [inversion H; subst; exact K|].
    apply mpath_cons in H as [EO H]. exact (IH _ _ (mtstep_ok t Ht e s K EO) H).
  Qed.

  (** ** Apart *)
  Lemma mok_apart s x y a : mok t s -> x <> y -> moccupies s x a -> moccupies s y a -> False.
  Proof.
    intros K N. pose proof (tk_proc _ _ (mk_t _ _ K)) as PK. destruct (pok_apart t Ht _ PK) as (RR & RM & MM).
    assert (PR : forall k h, pc_ring (ms_p s) k = Some h -> ring_addr h a -> ring_page t h (a / P)).
    { intros k h Hk Ha. destruct (pk_ring _ _ PK _ _ Hk) as (_ & n & o & m & H). exact (ring_addr_page t Ht _ _ _ _ _ _ H Ha). }
    assert (PP : forall i pd, ms_ring s i = Some pd -> mpd_addr pd a -> mpd_page t pd (a / P)).
    { intros i pd Hi Ha. exact (mpd_addr_page t Ht _ _ _ _ (mk_ring _ _ K _ _ Hi) Ha). }
    destruct x as [k1|k1|i1], y as [k2|k2|i2]; cbn [moccupies]; intros (u & Hu & Au) (v & Hv & Av).
    - exact (MM _ _ _ _ _ Hu Hv ltac:(congruence) Au Av).
    - exact (RM _ _ _ _ _ Hv Hu Av Au).
    - exact (proj1 (mk_apart _ _ K _ _ Hv) _ _ _ Hu (map_addr_page t Ht _ _ Au) (PP _ _ Hv Av)).
    - exact (RM _ _ _ _ _ Hu Hv Au Av).
    - exact (RR _ _ _ _ _ Hu Hv ltac:(congruence) Au Av).
    - exact (proj2 (mk_apart _ _ K _ _ Hv) _ _ _ Hu (PR _ _ Hu Au) (PP _ _ Hv Av)).
    - exact (proj1 (mk_apart _ _ K _ _ Hu) _ _ _ Hv (map_addr_page t Ht _ _ Av) (PP _ _ Hu Au)).
    - exact (proj2 (mk_apart _ _ K _ _ Hu) _ _ _ Hv (PR _ _ Hv Av) (PP _ _ Hu Au)).
    - exact (mk_pages _ _ K _ _ _ _ _ Hu Hv ltac:(congruence) (PP _ _ Hu Au) (PP _ _ Hv Av)).
  Qed.
  Lemma mok_mapped s x a : mok t s -> moccupies s x a -> w_vm (pc_w (ms_p s)) (a / P) <> None.
  Proof.
    intros K. pose proof (tk_proc _ _ (mk_t _ _ K)) as PK. destruct x as [k|k|i]; cbn [moccupies]; intros (u & Hu & Au).
    - destruct (own_mapped_live t _ _ _ _ (pk_api _ _ PK) Hu (map_addr_page t Ht _ _ Au)) as (e & He). unfold pc_w, ms_p. congruence.
    - destruct (pk_ring _ _ PK _ _ Hu) as (_ & n & o & m & H).
      destruct (ring_mapped t Ht _ _ _ _ PK Hu (ring_addr_page t Ht _ _ _ _ _ _ H Au)) as (e & He). unfold ms_p. congruence.
    - destruct (ring_mapped0 t Ht _ _ _ _ (mk_ring _ _ K _ _ Hu) (mpd_addr_page t Ht _ _ _ _ (mk_ring _ _ K _ _ Hu) Au)) as (e & He). congruence.
  Qed.

  (** ** Rings, in between *)
  Lemma mevent_ring e s k h n o m : mok t s -> mev_ok t s e -> pc_ring (ms_p s) k = Some h -> at_home t (pc_w (ms_p s)) h n o m ->
    (forall c, e = ECall c -> ring_subject c <> Some k \/ (exists i, c = PICall k i /\ forall s, h <> HInf s) \/ (exists i, c = PCall k i /\ forall s, h <> HRing s)) ->
    pc_ring (ms_p (snd (mtstep t e s))) k = Some h /\ at_home t (pc_w (ms_p (snd (mtstep t e s)))) h n o m.
  Proof.
    intros K [EO MO] Hk H N.
    assert (Ps : not_ring e -> (forall tid, e = EGo tid -> ms_ring s tid = None) ->
      pc_ring (ms_p (snd (mtstep t e s))) k = Some h /\ at_home t (pc_w (ms_p (snd (mtstep t e s)))) h n o m).
    { intros NR G. destruct (mtstep_posix t Ht e s K EO NR G) as [->| ->]; [|auto].
      pose proof (event_ring t Anonymous Ht e (ms_t s) k h n o m (mk_t _ _ K) EO Hk H N) as X.
      destruct (tstep t Anonymous e (ms_t s)) as [r x]. exact X. }
    destruct e as [c|tid mut po path|tid mut po fd|tid inf hint clock|tid]; try (apply Ps; [intros ? ? ? ?; discriminate|discriminate]).
    - cbn [mtstep]. destruct (ms_ring s tid); [auto|]. destruct (ts_pool (ms_t s) tid); [auto|]. destruct (size_round (E:=error) t (size_alloc t) hint); auto.
    - destruct (ms_ring s tid) as [pd|] eqn:Hp; [|apply Ps; [intros ? ? ? ?; discriminate|intros i [= <-]; exact Hp]].
      cbn [mtstep]. rewrite Hp. unfold mgo. destruct (madvance t pd (ms_mach s)) as [oc m'] eqn:E.
      pose proof (madv_staged t Ht _ _ _ _ (ok_wf _ _ (pk_api _ _ (tk_proc _ _ (mk_t _ _ K))) : wf (mc_w (ms_mach s))) (mk_ring _ _ K _ _ Hp) E) as St.
      pose proof (mstage_home t Ht _ _ _ _ _ K Hp St k h n o m Hk H) as H'.
      destruct oc as [pd'|inf pg len|r]; unfold ms_p; cbn; (split; [|exact H']); try exact Hk.
      rewrite put_other; [exact Hk|]. intros ->. unfold ms_p in Hk. rewrite (pk_cnt _ _ (tk_proc _ _ (mk_t _ _ K))) in Hk by lia. discriminate Hk.
  Qed.
  Lemma mtrun_cons e h s xs s2 : mtrun t (e :: h) s = (xs, s2) ->
    exists x xs', xs = x :: xs' /\ fst (mtstep t e s) = x /\ mtrun t h (snd (mtstep t e s)) = (xs', s2).
  Proof.
    cbn [mtrun]. destruct (mtstep t e s) as [x p1]. destruct (mtrun t h p1) as [xs' p3] eqn:E. intros [= <- <-].
    exists x, xs'. auto.
  Qed.
  Lemma mnot_call e s x : fst (mtstep t e s) = x -> (forall c, e <> ECall c) -> forall xs, presults (x :: xs) = presults xs.
  Proof.
    intros <- N xs. cbn [presults]. enough (E : as_presult (fst (mtstep t e s)) = []) by (rewrite E; reflexivity).
    assert (X : as_presult (fst (tstep t Anonymous e (ms_t s))) = []).
    { pose proof (not_call t Anonymous e (ms_t s) _ eq_refl N []) as X. cbn [presults] in X. rewrite app_nil_r in X. exact X. }
    assert (Y : as_presult (fst (on_posix (tstep t Anonymous e (ms_t s)) s)) = []) by (unfold on_posix; destruct (tstep t Anonymous e (ms_t s)); exact X).
    destruct e as [c|tid mut po path|tid mut po fd|tid inf hint clock|tid]; cbn [mtstep].
    - destruct (N c eq_refl).
    - destruct (ms_ring s tid); [reflexivity|exact Y].
    - destruct (ms_ring s tid); [reflexivity|exact Y].
    - destruct (ms_ring s tid); [reflexivity|]. destruct (ts_pool (ms_t s) tid); [reflexivity|]. destruct (size_round (E:=error) t (size_alloc t) hint); reflexivity.
    - destruct (ms_ring s tid) as [pd|]; [|exact Y]. unfold mgo. destruct (madvance t pd (ms_mach s)) as [[pd'|inf pg len|r] m']; reflexivity.
  Qed.

  Lemma mring_between h : forall p xs p2 k s n o m T R acc, mok t p -> mtpath t p h p2 -> mtrun t h p = (xs, p2) ->
    pc_ring (ms_p p) k = Some (HRing s) -> at_home t (pc_w (ms_p p)) (HRing s) n o m -> inv t (abs s m) T R -> T <= acc ->
    history_ok t acc (k_len s) (calls_on k (pcalls h)) ->
    q_answers (absq (abs s m) T R) (calls_on k (pcalls h)) (answers_on k (pcalls h) (presults xs)).
  Proof.
    induction h as [|ev h IH]; intros p xs p2 k s n o m T R acc K F E Hk H I HT Ho.
    - injection E as <- <-. constructor.
    - apply mpath_cons in F as [EO F]. apply mtrun_cons in E as (x & xs' & -> & Ex & E).
      pose proof (mtstep_ok t Ht ev p K EO) as K1.
      assert (Other : (forall c, ev = ECall c -> ring_subject c <> Some k \/ exists i, c = PICall k i) ->
        history_ok t acc (k_len s) (calls_on k (pcalls h)) -> q_answers (absq (abs s m) T R) (calls_on k (pcalls h)) (answers_on k (pcalls h) (presults xs'))).
      { intros N Ho'. destruct (mevent_ring ev p k _ n o m K EO Hk H) as [Hk1 H1].
        { intros c Ec. destruct (N c Ec) as [N1|(i & N1)]; [left; exact N1|right; left]. exists i. split; [exact N1|discriminate]. }
        exact (IH _ _ _ _ _ _ _ _ _ _ _ K1 F E Hk1 H1 I HT Ho'). }
      destruct ev as [c|tid mut po path|tid mut po fd|tid inf hint clock|tid].
      2,3,4,5: rewrite (mnot_call _ _ _ Ex) by discriminate; apply Other; [discriminate|exact Ho].
      destruct EO as ((CO & On & _) & _). rewrite (call_posix t Ht c p K On) in *. cbn [tstep] in *. change (ts_p (ms_t p)) with (ms_p p) in *.
      destruct (pstep t Anonymous c (ms_p p)) as [y0 p1] eqn:Ep. cbn [on_posix fst snd] in *. subst x. cbn [presults as_presult pcalls as_pcall app] in *.
      destruct c as [c|hint clock|hint clock|k2 c|k2 c|k2]; cbn [calls_on answers_on] in *.
      + apply Other; auto; intros ? [= <-]; left; discriminate.
      + apply Other; auto; intros ? [= <-]; left; discriminate.
      + apply Other; auto; intros ? [= <-]; left; discriminate.
      + destruct (Z.eqb_spec k2 k) as [->|N]; [|apply Other; auto; intros ? [= <-]; left; cbn; congruence].
        cbn [history_ok] in Ho. destruct Ho as (Hc & Hpos & Ho). cbn [pstep] in Ep. rewrite Hk in Ep.
        destruct (pk_ring _ _ (tk_proc _ _ (mk_t _ _ K)) _ _ Hk) as (Fs & _).
        pose proof (ring_call_spec t Ht s (pc_w (ms_p p)) n o m c H Fs Hc) as A. unfold agrees, agr in A.
        destruct (step_sim t HB (abs s m) T R c acc I HT Hc Hpos) as [[Q _]|[NQ (r' & y & T' & R' & Er & I' & HT' & Qs & El)]].
        * rewrite (ring_panics t Ht s (pc_w (ms_p p)) m T R c I Hc Q) in Ep. injection Ep as <- <-. cbn [ring_answer app].
          apply qa_panic; [exact Q|].
          refine (IH _ _ _ _ s n o m T R (next_total acc (k_len s) c) K1 F E _ _ I _ Ho).
          -- cbn. apply put_same.
          -- exact H.
          -- destruct c; try (exfalso; exact Q); cbn; [lia|]. pose proof (zlen_nonneg b). pose proof (inv_len _ _ _ _ I). cbn in *. lia.
        * rewrite Er in A. destruct A as (s' & w' & Es & Eabs & Fs' & Rg & O). rewrite Es in Ep. injection Ep as <- <-. cbn [ring_answer app].
          apply (qa_ok _ _ _ (absq r' T' R')); [exact NQ|exact Qs|]. pose proof Fs' as (E1 & E2 & _).
          rewrite Eabs in I' |- *. refine (IH _ _ _ _ s' n o (r_mem r') T' R' (next_total acc (k_len s) c) K1 F E _ _ I' HT' _).
          -- cbn. apply put_same.
          -- destruct H as [L R0 [Pv1 Pv2 Pv3] Lo Hi]. cbn [h_alloc ra_ptr ra_len] in *.
             split; cbn [h_alloc ra_ptr ra_len]; rewrite ?E1, ?E2; try assumption.
             split; cbn; [rewrite (oi_next _ _ _ O)|rewrite (oi_fd _ _ _ O)|rewrite (oi_fs _ _ _ O)]; assumption.
          -- rewrite E2. exact Ho.
      + destruct (Z.eqb_spec k2 k) as [->|N]; [|apply Other; auto; intros ? [= <-]; left; cbn; congruence].
        assert (X : ring_answer y0 = []) by (cbn [pstep] in Ep; rewrite Hk in Ep; injection Ep as <- <-; reflexivity). rewrite X. cbn [app].
        apply Other; [|exact Ho]. intros ? [= <-]. eauto.
      + destruct (Z.eqb_spec k2 k) as [->|N]; [constructor|apply Other; auto; intros ? [= <-]; left; cbn; congruence].
  Qed.

  Lemma minf_between h : forall p xs p2 k s n o m T acc, mok t p -> mtpath t p h p2 -> mtrun t h p = (xs, p2) ->
    pc_ring (ms_p p) k = Some (HInf s) -> at_home t (pc_w (ms_p p)) (HInf s) n o m -> iinv t (iabs s m) T -> T <= acc ->
    ihistory_ok t acc (ki_len s) (icalls_on k (pcalls h)) ->
    lq_answers (abst (iabs s m) T) (icalls_on k (pcalls h)) (answers_on k (pcalls h) (presults xs)).
  Proof.
    induction h as [|ev h IH]; intros p xs p2 k s n o m T acc K F E Hk H I HT Ho.
    - injection E as <- <-. constructor.
    - apply mpath_cons in F as [EO F]. apply mtrun_cons in E as (x & xs' & -> & Ex & E).
      pose proof (mtstep_ok t Ht ev p K EO) as K1.
      assert (Other : (forall c, ev = ECall c -> ring_subject c <> Some k \/ exists i, c = PCall k i) ->
        ihistory_ok t acc (ki_len s) (icalls_on k (pcalls h)) -> lq_answers (abst (iabs s m) T) (icalls_on k (pcalls h)) (answers_on k (pcalls h) (presults xs'))).
      { intros N Ho'. destruct (mevent_ring ev p k _ n o m K EO Hk H) as [Hk1 H1].
        { intros c Ec. destruct (N c Ec) as [N1|(i & N1)]; [left; exact N1|right; right]. exists i. split; [exact N1|discriminate]. }
        exact (IH _ _ _ _ _ _ _ _ _ _ K1 F E Hk1 H1 I HT Ho'). }
      destruct ev as [c|tid mut po path|tid mut po fd|tid inf hint clock|tid].
      2,3,4,5: rewrite (mnot_call _ _ _ Ex) by discriminate; apply Other; [discriminate|exact Ho].
      destruct EO as ((CO & On & _) & _). rewrite (call_posix t Ht c p K On) in *. cbn [tstep] in *. change (ts_p (ms_t p)) with (ms_p p) in *.
      destruct (pstep t Anonymous c (ms_p p)) as [y0 p1] eqn:Ep. cbn [on_posix fst snd] in *. subst x. cbn [presults as_presult pcalls as_pcall app] in *.
      destruct c as [c|hint clock|hint clock|k2 c|k2 c|k2]; cbn [icalls_on answers_on] in *.
      + apply Other; auto; intros ? [= <-]; left; discriminate.
      + apply Other; auto; intros ? [= <-]; left; discriminate.
      + apply Other; auto; intros ? [= <-]; left; discriminate.
      + destruct (Z.eqb_spec k2 k) as [->|N]; [|apply Other; auto; intros ? [= <-]; left; cbn; congruence].
        assert (X : ring_answer y0 = []) by (cbn [pstep] in Ep; rewrite Hk in Ep; injection Ep as <- <-; reflexivity). rewrite X. cbn [app].
        apply Other; [|exact Ho]. intros ? [= <-]. eauto.
      + destruct (Z.eqb_spec k2 k) as [->|N]; [|apply Other; auto; intros ? [= <-]; left; cbn; congruence].
        cbn [ihistory_ok] in Ho. destruct Ho as (Hc & Hpos & Ho). cbn [pstep] in Ep. rewrite Hk in Ep.
        destruct (pk_ring _ _ (tk_proc _ _ (mk_t _ _ K)) _ _ Hk) as (Fs & _).
        pose proof (inf_call_spec t Ht s (pc_w (ms_p p)) n o m c H Fs CO) as A. unfold iagrees, agr in A.
        destruct (istep_sim t HB (iabs s m) T c acc I HT Hc Hpos) as [[Q _]|[NQ (r' & y & T' & Er & I' & HT' & Qs & El)]].
        * rewrite (inf_panics t Ht s (pc_w (ms_p p)) m T c I CO Q) in Ep. injection Ep as <- <-. cbn [ring_answer app].
          apply la_panic; [exact Q|].
          refine (IH _ _ _ _ s n o m T (acc + irop_weight (ki_len s) c) K1 F E _ _ I _ Ho).
          -- cbn. apply put_same.
          -- exact H.
          -- destruct c; try (exfalso; exact Q); cbn; lia.
        * rewrite Er in A. destruct A as (s' & w' & Es & Eabs & Fs' & Rg & O). rewrite Es in Ep. injection Ep as <- <-. cbn [ring_answer app].
          apply (la_ok _ _ _ (abst r' T')); [exact NQ|exact Qs|]. pose proof Fs' as (E1 & E2 & _).
          rewrite Eabs in I' |- *. refine (IH _ _ _ _ s' n o (i_mem r') T' (acc + irop_weight (ki_len s) c) K1 F E _ _ I' HT' _).
          -- cbn. apply put_same.
          -- destruct H as [L R0 [Pv1 Pv2 Pv3] Lo Hi]. cbn [h_alloc ra_ptr ra_len] in *.
             split; cbn [h_alloc ra_ptr ra_len]; rewrite ?E1, ?E2; try assumption.
             split; cbn; [rewrite (oi_next _ _ _ O)|rewrite (oi_fd _ _ _ O)|rewrite (oi_fs _ _ _ O)]; assumption.
          -- rewrite E2. exact Ho.
      + destruct (Z.eqb_spec k2 k) as [->|N]; [constructor|apply Other; auto; intros ? [= <-]; left; cbn; congruence].
  Qed.


  Lemma mbetween_ring h : forall s s' k r, mok t s -> mtpath t s h s' ->
    Forall (fun e => ~ acts_for e (HoldRing k)) h -> pc_ring (ms_p s) k = Some r ->
    pc_ring (ms_p s') k = Some r /\ forall a, ring_addr r a -> load (E:=error) t (pc_w (ms_p s')) a = load t (pc_w (ms_p s)) a.
  Proof.
    induction h as [|e h IH]; intros s s' k r K H F Hk; [inversion H; subst; auto|].
    apply mpath_cons in H as [EO H]. apply Forall_cons_iff in F as [N F]. destruct (pk_ring _ _ (tk_proc _ _ (mk_t _ _ K)) _ _ Hk) as (_ & n & o & m & Hm).
    destruct (mevent_ring e s k r n o m K EO Hk Hm) as [Hk1 H1].
    { intros c ->. left. intros E. apply N. destruct c; try discriminate E; exact E. }
    destruct (IH _ _ _ _ (mtstep_ok t Ht e s K EO) H F Hk1) as [E1 E2]. split; [exact E1|]. intros a Ha. rewrite (E2 a Ha).
    pose proof (hm_len _ _ _ _ _ _ Hm) as L. unfold ring_addr in Ha. rewrite L in Ha.
    replace a with (ra_ptr (h_alloc r) + (a - ra_ptr (h_alloc r))) by lia.
    pose proof (ring_load t Hg _ _ _ _ _ (a - ra_ptr (h_alloc r)) (hm_ring _ _ _ _ _ _ Hm) ltac:(lia)) as L1.
    pose proof (ring_load t Hg _ _ _ _ _ (a - ra_ptr (h_alloc r)) (hm_ring _ _ _ _ _ _ H1) ltac:(lia)) as L2.
    exact (eq_trans L2 (eq_sym L1)).
  Qed.

  (** ** A ring *)
  Definition for_mring (inf : bool) (len : Z) (pd : mpending) : Prop :=
    match pd with
    | AAny i l | AFixed i l _ | AEntry i l _ | AMap i l _ _ _ => i = inf /\ l = len
    | AUndo _ _ _ => True
    end.
  Lemma adv_mring inf len pd m oc m' : for_mring inf len pd -> madvance t pd m = (oc, m') ->
    match oc with
    | MMore pd' => for_mring inf len pd'
    | MMade i _ l => i = inf /\ l = len
    | MOver r => forall k, r <> Ret k
    end.
  Proof.
    destruct pd; cbn [for_mring madvance].
    - intros [-> ->]. destruct (umul (E:=error) t 2 len) as [full|e| | |]; try (intros [= <- <-] k; discriminate).
      destruct (kern_call RingAllocate (on_world (vm_allocate_anywhere t full)) m) as [[x|e| | |] m1]; intros [= <- <-]; cbn; auto; intros k; discriminate.
    - intros [-> ->]. destruct (kern_call RingPrimary (on_world (vm_allocate_fixed t addr len)) m) as [[x|e| | |] m1]; intros [= <- <-]; cbn; auto; intros k; discriminate.
    - intros [-> ->]. destruct (kern_call RingEntry (make_memory_entry t len addr) m) as [[[x y]|e| | |] m1]; intros [= <- <-]; cbn; auto; intros k; discriminate.
    - intros [-> ->]. destruct (uadd (E:=error) t addr size) as [half|e| | |]; try (intros [= <- <-] k; discriminate).
      destruct (kern_call RingSecondary (vm_map_fixed t half size port) m) as [[x|e| | |] m1]; intros [= <- <-]; cbn; auto; intros k; discriminate.
    - intros _. destruct (umul (E:=error) t 2 len0); intros E; apply pair_eq in E as [<- _]; intros k; discriminate.
  Qed.
  Lemma mfollow_ring (Q : mpending -> Prop) tid : (forall pd pd' m m', Q pd -> madvance t pd m = (MMore pd', m') -> Q pd') ->
    forall h s s', mtpath t s h s' -> Forall (fun e => starts e <> Some tid) h -> (forall pd, ms_ring s tid = Some pd -> Q pd) ->
    forall pd, ms_ring s' tid = Some pd -> Q pd.
  Proof.
    intros QA. induction h as [|e h IH]; intros s s' H F S; [inversion H; subst; exact S|].
    apply mpath_cons in H as [EO H]. apply Forall_cons_iff in F as [N F]. refine (IH _ _ H F _). clear IH H F. intros pd.
    assert (Px : forall x, ms_ring (snd (on_posix x s)) = ms_ring s) by (intros [r x]; reflexivity).
    destruct e as [c|i mut o path|i mut o fd|i inf hint clock|i]; cbn [mtstep starts] in *.
    - destruct (mstep t c {| mp_p := ms_p s; mp_ports := ms_ports s |}) as [x m]. exact (S pd).
    - destruct (ms_ring s i); [exact (S pd)|]. rewrite Px. exact (S pd).
    - destruct (ms_ring s i); [exact (S pd)|]. rewrite Px. exact (S pd).
    - destruct (ms_ring s i); [exact (S pd)|]. destruct (ts_pool (ms_t s) i); [exact (S pd)|].
      destruct (size_round (E:=error) t (size_alloc t) hint); try exact (S pd). cbn. rewrite put_other by congruence. exact (S pd).
    - destruct (ms_ring s i) as [pi|] eqn:Hi; [|rewrite Px; exact (S pd)]. unfold mgo. destruct (madvance t pi (ms_mach s)) as [oc m'] eqn:E.
      destruct (Z.eq_dec tid i) as [<-|Ni].
      + destruct oc as [pd'|inf pg len|r]; cbn; rewrite put_same; intros [= <-]. exact (QA _ _ _ _ (S _ Hi) E).
      + destruct oc as [pd'|inf pg len|r]; cbn; rewrite put_other by congruence; exact (S pd).
  Qed.

  (** A POSIX step of a thread that makes a map never answers with a ring. *)
  Lemma map_answer s tid k : maps_only s -> fst (tstep t Anonymous (EGo tid) s) <> TRing k.
  Proof.
    intros M. cbn [tstep]. destruct (ts_pool s tid) as [pd|] eqn:Hp; [|discriminate]. specialize (M _ _ Hp). unfold go.
    destruct (advance t Anonymous pd (pc_w (ts_p s))) as [oc w'] eqn:E. pose proof (map_stage_adv t _ _ _ _ M E) as A.
    destruct oc as [pd'|mut own o fd m|inf pg len|r]; cbn [fst]; try discriminate; [contradiction A|].
    destruct pd; try discriminate M; cbn [advance] in E; unfold then_, map_fail in E;
      repeat match type of E with
      | (match ?x with _ => _ end) = _ => destruct x; try discriminate E
      | context [match ?x with Some _ => _ | None => _ end] => destruct x; try discriminate E
      end; try discriminate E; try (injection E as <- _; discriminate);
      destruct own; try discriminate E; injection E as <- _; discriminate.
  Qed.

  Lemma mring_made s0 tid inf hint clock h s2 k s3 : mok t s0 -> mev_ok t s0 (ERing tid inf hint clock) -> busy s0 tid = false ->
    mtpath t (snd (mtstep t (ERing tid inf hint clock) s0)) h s2 -> Forall (fun e => starts e <> Some tid) h ->
    mtstep t (EGo tid) s2 = (TRing (Ret k), s3) ->
    mok t s3 /\ exists cap pg n o, is_ceil (t_alloc t) hint cap /\ 0 < cap /\ 2 * cap < 2 ^ t_bits t /\ pc_ring (ms_p s2) k = None /\
      pc_ring (ms_p s3) k = Some (new_held inf pg cap) /\ at_home t (pc_w (ms_p s3)) (new_held inf pg cap) n o (fun _ => 0).
  Proof.
    intros K0 EO Bz H F G. pose proof (mtstep_ok t Ht _ _ K0 EO) as K1. pose proof (mpath_ok _ _ _ K1 H) as K2.
    pose proof (mtstep_ok t Ht (EGo tid) s2 K2 (conj Logic.I Logic.I)) as K3. rewrite G in K3. split; [exact K3|].
    destruct EO as [EO _]. cbn [ev_ok] in EO. pose proof (round_cases t Hg hint EO) as Rc.
    unfold busy in Bz. destruct (ms_ring s0 tid) eqn:N0; [discriminate Bz|]. destruct (ts_pool (ms_t s0) tid) eqn:N1; [discriminate Bz|].
    assert (Hp : exists pd, ms_ring s2 tid = Some pd).
    { cbn [mtstep] in G. destruct (ms_ring s2 tid) as [pd|]; [eauto|]. exfalso. apply (map_answer (ms_t s2) tid (Ret k) (mk_only _ _ K2)).
      unfold on_posix in G. destruct (tstep t Anonymous (EGo tid) (ms_t s2)) as [r x]. injection G as -> _. reflexivity. }
    destruct Hp as (pd & Hp). cbn [mtstep] in H, G, K1. rewrite N0, N1 in H, K1. rewrite Hp in G.
    destruct (size_round (E:=error) t (size_alloc t) hint) as [cap|e| | |] eqn:Es.
    2,3,4,5: exfalso; cbn [snd] in H; refine (mfollow_ring (fun _ => False) tid _ h s0 s2 H F _ pd Hp); [auto|intros x Hx; congruence].
    assert (X : for_mring inf cap pd).
    { refine (mfollow_ring (for_mring inf cap) tid _ h _ s2 H F _ pd Hp).
      - intros x y m m' Q E. exact (adv_mring _ _ _ _ _ _ Q E).
      - intros x. cbn. rewrite put_same. intros [= <-]. cbn. auto. }
    unfold mgo in G. destruct (madvance t pd (ms_mach s2)) as [oc m'] eqn:E. pose proof (adv_mring _ _ _ _ _ _ X E) as A.
    pose proof (madv_staged t Ht _ _ _ _ (ok_wf _ _ (pk_api _ _ (tk_proc _ _ (mk_t _ _ K2))) : wf (mc_w (ms_mach s2))) (mk_ring _ _ K2 _ _ Hp) E) as St.
    pose proof (sg_out _ _ _ _ _ St) as So. destruct oc as [pd'|i pg l|r]; try discriminate G.
    2: { exfalso. injection G as -> _. exact (A k eq_refl). }
    destruct A as [-> ->]. injection G as <- <-. destruct So as (n & o & Hm & _ & _). exists cap, pg, n, o.
    assert (L0 : 0 < cap).
    { pose proof (hm_len _ _ _ _ _ _ Hm) as L. pose proof (rg_n _ _ _ _ _ _ (hm_ring _ _ _ _ _ _ Hm)). destruct inf; cbn in L; nia. }
    split; [exact (proj2 Rc L0)|]. split; [exact L0|].
    split. { pose proof (hm_low _ _ _ _ _ _ Hm). pose proof (hm_high _ _ _ _ _ _ Hm). destruct inf; cbn in *; lia. }
    split; [apply (pk_cnt _ _ (tk_proc _ _ (mk_t _ _ K2))); unfold ms_p; lia|]. unfold ms_p. cbn. split; [apply put_same|exact Hm].
  Qed.
  Lemma mring_thread s0 tid hint clock h s2 k s3 h' xs s4 : mok t s0 -> mev_ok t s0 (ERing tid false hint clock) -> busy s0 tid = false ->
    mtpath t (snd (mtstep t (ERing tid false hint clock) s0)) h s2 -> Forall (fun e => starts e <> Some tid) h ->
    mtstep t (EGo tid) s2 = (TRing (Ret k), s3) -> mtpath t s3 h' s4 -> mtrun t h' s3 = (xs, s4) ->
    exists cap, is_ceil (t_alloc t) hint cap /\
      (history_ok t 0 cap (calls_on k (pcalls h')) ->
       q_answers {| q_data := []; q_free := zeros cap |} (calls_on k (pcalls h')) (answers_on k (pcalls h') (presults xs))).
  Proof.
    intros K0 EO N0 H F G H' Er. destruct (mring_made _ _ _ _ _ _ _ _ _ K0 EO N0 H F G) as (K3 & cap & pg & n & o & IC & L1 & L2 & _ & Hk & Hm).
    exists cap. split; [exact IC|]. intros Ho. pose proof (make_inv t HB cap (fun _ => 0) L1 ltac:(lia)) as I.
    replace {| q_data := []; q_free := zeros cap |} with (absq (abs (kring_new pg cap) (fun _ => 0)) 0 0).
    - exact (mring_between h' s3 xs s4 k (kring_new pg cap) n o _ 0 0 0 K3 H' Er Hk Hm I ltac:(lia) Ho).
    - unfold absq. cbn [abs kring_new r_mem r_len k_len]. rewrite !Z.sub_0_r. rewrite view_zeros by exact L1. reflexivity.
  Qed.
  Lemma minf_thread s0 tid hint clock h s2 k s3 h' xs s4 : mok t s0 -> mev_ok t s0 (ERing tid true hint clock) -> busy s0 tid = false ->
    mtpath t (snd (mtstep t (ERing tid true hint clock) s0)) h s2 -> Forall (fun e => starts e <> Some tid) h ->
    mtstep t (EGo tid) s2 = (TRing (Ret k), s3) -> mtpath t s3 h' s4 -> mtrun t h' s3 = (xs, s4) ->
    exists cap, is_ceil (t_alloc t) hint cap /\
      (ihistory_ok t 0 cap (icalls_on k (pcalls h')) ->
       lq_answers {| lq_tape := zeros cap; lq_len := 0 |} (icalls_on k (pcalls h')) (answers_on k (pcalls h') (presults xs))).
  Proof.
    intros K0 EO N0 H F G H' Er. destruct (mring_made _ _ _ _ _ _ _ _ _ K0 EO N0 H F G) as (K3 & cap & pg & n & o & IC & L1 & L2 & _ & Hk & Hm).
    exists cap. split; [exact IC|]. intros Ho. pose proof (imake_inv t HB cap (fun _ => 0) L1 L2) as I.
    replace {| lq_tape := zeros cap; lq_len := 0 |} with (abst (iabs (kiring_new pg cap) (fun _ => 0)) 0).
    - exact (minf_between h' s3 xs s4 k (kiring_new pg cap) n o _ 0 0 K3 H' Er Hk Hm I ltac:(lia) Ho).
    - unfold abst. cbn [iabs kiring_new i_mem i_len i_rlen ki_len ki_rlen]. rewrite view_zeros by exact L1. reflexivity.
  Qed.

  (** ** A map *)
  Lemma mgo_fd s tid pd : mok t s -> ms_ring s tid = Some pd ->
    w_fd (pc_w (ms_p (snd (mgo t tid pd s)))) = w_fd (pc_w (ms_p s)) /\ ts_pool (ms_t (snd (mgo t tid pd s))) = ts_pool (ms_t s).
  Proof.
    intros K Hp. unfold mgo. destruct (madvance t pd (ms_mach s)) as [oc m'] eqn:E.
    pose proof (madv_staged t Ht _ _ _ _ (ok_wf _ _ (pk_api _ _ (tk_proc _ _ (mk_t _ _ K))) : wf (mc_w (ms_mach s))) (mk_ring _ _ K _ _ Hp) E) as St.
    pose proof (sg_fd _ _ _ _ _ St) as Fd. destruct oc; (split; [exact Fd|reflexivity]).
  Qed.
  Section Map.
    Variables (mut own : bool) (o : options) (fd : Z) (f : fdent) (len : Z).
    Hypothesis Hlen : is_usize t len.
    Notation Q := (for_map mut own o fd f len).
    Lemma for_map_keeps pd w w' : Q pd w -> ThreadProofs.keeps t pd w w' -> Q pd w'.
    Proof.
      intros [Qf Q0] Kp. split; [|exact Q0]. rewrite (kp_fd _ _ _ _ Kp); [exact Qf|].
      destruct pd; try contradiction Q0; cbn [pd_fd]; try (destruct Q0 as (_ & _ & _ & -> & _); reflexivity). destruct Q0 as [-> _]. reflexivity.
    Qed.
    Lemma for_map_eq pd w w' : Q pd w -> w_fd w' = w_fd w -> Q pd w'.
    Proof. intros [Qf Q0] E. split; [rewrite E; exact Qf|exact Q0]. Qed.
    Lemma mfollow_map tid : forall h s s', mok t s -> mtpath t s h s' -> Forall (fun e => starts e <> Some tid) h ->
      follows Q tid (ms_t s) -> follows Q tid (ms_t s').
    Proof.
      induction h as [|e h IH]; intros s s' K H F S; [inversion H; subst; exact S|].
      apply mpath_cons in H as [EO H]. apply Forall_cons_iff in F as [N F]. refine (IH _ _ (mtstep_ok t Ht e s K EO) H F _). clear IH H F.
      assert (Ps : not_ring e -> (forall tid, e = EGo tid -> ms_ring s tid = None) -> follows Q tid (ms_t (snd (mtstep t e s)))).
      { intros NR G. destruct EO as [EO _]. destruct (mtstep_posix t Ht e s K EO NR G) as [->| ->]; [|exact S].
        assert (X : follows Q tid (snd (tstep t Anonymous e (ms_t s)))).
        { refine (follow t Anonymous Ht Q tid for_map_keeps _ [e] _ _ (mk_t _ _ K) _ ltac:(repeat constructor; exact N) S).
          - intros pd pd' w w' Q0 _ PO E. exact (adv_map t Anonymous Ht mut own o fd f len Hlen pd w pd' w' Q0 PO E).
          - apply tp_cons; [exact EO|apply tp_nil]. }
        destruct (tstep t Anonymous e (ms_t s)) as [r x]. exact X. }
      destruct e as [c|i mut' o' path|i mut' o' fd'|i inf hint clock|i]; try (apply Ps; [intros ? ? ? ?; discriminate|discriminate]).
      - cbn [mtstep]. destruct (ms_ring s i); [exact S|]. destruct (ts_pool (ms_t s) i); [exact S|]. destruct (size_round (E:=error) t (size_alloc t) hint); exact S.
      - destruct (ms_ring s i) as [pd|] eqn:Hp; [|apply Ps; [intros ? ? ? ?; discriminate|intros j [= <-]; exact Hp]].
        cbn [mtstep]. rewrite Hp. destruct (mgo_fd s i pd K Hp) as [Fd Pl]. intros pd0 H0. rewrite Pl in H0.
        exact (for_map_eq _ _ _ (S pd0 H0) Fd).
    Qed.
  End Map.
  Lemma go_posix s tid r s' : ms_ring s tid = None -> mtstep t (EGo tid) s = (r, s') ->
    tstep t Anonymous (EGo tid) (ms_t s) = (r, ms_t s').
  Proof. intros N E. cbn [mtstep] in E. rewrite N in E. unfold on_posix in E. destruct (tstep t Anonymous (EGo tid) (ms_t s)) as [x y]. injection E as <- <-. reflexivity. Qed.

  Lemma mmap_thread s tid mut own o fd f h s2 y s3 : mok t s -> ms_ring s tid = None -> ts_pool (ms_t s) tid = Some (MStat mut own o fd) ->
    w_fd (pc_w (ms_p s)) fd = Some f ->
    mtpath t (snd (mtstep t (EGo tid) s)) h s2 -> Forall (fun e => starts e <> Some tid) h ->
    mtstep t (EGo tid) s2 = (TMap (Ret y), s3) ->
    let L := final_len (op_truncate o) (op_resize o) (as_usize t (o_size (w_obj (pc_w (ms_p s)) (fd_obj f)))) in
    (out_of_file (op_len o) (op_offset o) L /\ y = (if own then SFile None fd else SNone) /\ ms_p s3 = ms_p s2) \/
    (~ out_of_file (op_len o) (op_offset o) L /\ exists k l, y = (if own then SFile (Some k) fd else SMap k) /\
       a_live (pc_a (ms_p s2)) k = None /\ a_live (pc_a (ms_p s3)) k = Some l /\ l_obj l = fd_obj f /\
       right_len (op_len o) (op_offset o) L (m_len (l_map l)) /\ l_off l = op_offset o /\ l_prot l = op_protect o /\ l_mut l = mut /\
       w_obj (pc_w (ms_p s3)) = w_obj (pc_w (ms_p s2)) /\
       forall i, 0 <= i < m_len (l_map l) -> op_offset o + i < o_size (w_obj (pc_w (ms_p s3)) (fd_obj f)) ->
         map_get t (l_map l) i (pc_w (ms_p s3)) = (Ret (o_data (w_obj (pc_w (ms_p s3)) (fd_obj f)) (op_offset o + i)), pc_w (ms_p s3))).
  Proof.
    intros K N0 Hp Hf H F G. cbv zeta. set (len := as_usize t (o_size (w_obj (pc_w (ms_p s)) (fd_obj f)))).
    assert (Ul : is_usize t len) by (apply Z.mod_pos_bound, Z.pow_pos_nonneg; lia).
    pose proof (mtstep_ok t Ht (EGo tid) s K (conj Logic.I Logic.I)) as K1. pose proof (mpath_ok _ _ _ K1 H) as K2.
    assert (S1 : follows (for_map mut own o fd f len) tid (ms_t (snd (mtstep t (EGo tid) s)))).
    { destruct (mtstep t (EGo tid) s) as [r s'] eqn:Eg. pose proof (go_posix _ _ _ _ N0 Eg) as Eg'. cbn [snd].
      intros pd. cbn [tstep] in Eg'. rewrite Hp in Eg'. unfold go in Eg'. cbn [advance] in Eg'. unfold sbind, io_call, file_len in Eg'.
      destruct (sys_fstat fd (pc_w (ts_p (ms_t s)))) as [x w1] eqn:Es. apply fstat_spec in Es as [Q Es].
      destruct x as [l|e| | |]; try contradiction Es.
      - destruct Es as (g & Hg' & ->). unfold ms_p in Hf. assert (g = f) by congruence. subst g.
        unfold sret in Eg'. cbn [then_] in Eg'. apply pair_eq in Eg' as [_ <-]. cbn [set_pool ts_pool ts_p]. rewrite put_same. intros [= <-].
        split; [unfold pc_w; cbn; rewrite (q_fd _ _ Q); exact Hf|]. auto 6.
      - cbn [then_] in Eg'. unfold map_fail in Eg'. destruct own; apply pair_eq in Eg' as [_ <-]; cbn [set_pool ts_pool ts_p]; rewrite put_same; intros [= <-].
        split; [unfold pc_w; cbn; rewrite (q_fd _ _ Q); exact Hf|]. split; [reflexivity|discriminate]. }
    pose proof (mfollow_map mut own o fd f len Ul tid h _ s2 K1 H F S1) as S2.
    assert (Hn : ms_ring s2 tid = None).
    { cbn [mtstep] in G. destruct (ms_ring s2 tid) as [pd|]; [|reflexivity]. unfold mgo in G.
      destruct (madvance t pd (ms_mach s2)) as [[pd'|inf pg l|r] m']; discriminate G. }
    pose proof (go_posix _ _ _ _ Hn G) as G'.
    assert (Hp2 : exists pd, ts_pool (ms_t s2) tid = Some pd).
    { cbn [tstep] in G'. destruct (ts_pool (ms_t s2) tid) as [pd|]; [eauto|discriminate G']. }
    destruct Hp2 as (pd & Hp2). exact (map_last t Anonymous Ht mut own o fd f len (ms_t s2) tid pd y (ms_t s3) (mk_t _ _ K2) Hp2 (S2 pd Hp2) G').
  Qed.
End Claims.
