(** Lemmas behind the properties of calls in progress: what interleavings
    cannot change. *)
From Coq Require Import Lia.
From Verif Require Import Base Spec ErrorModel RingSpec RingModel SizeModel SizeProofs SeqProofs OsModel OthersModel MapModel MapSpec OsProofs MapProofs MapCreate MapOps
  ApiModel ApiSpec OthersProofs ApiProofs RingMapModel RingMapSpec MirrorProofs RingMapClaims RingProofs IRingProofs RingWeak MemRingModel MemRingProofs
  ProcModel ProcSpec ProcFrame ProcProofs ProcClaims ThreadModel ThreadSpec ThreadFrame ThreadProofs ThreadInv.

Section Claims.
  Variable t : target.
  Variable plat : platform.
  Hypothesis Ht : posix_target t.
  Notation P := (t_page t).
  Let Hg : good_target t := proj1 Ht.
  Let HP : 0 < P.
  Proof. exact (pow2_pos _ (proj1 (proj2 Hg))). Qed.
  Let HB : 32 <= t_bits t <= 64.
  Proof. destruct Hg as [[E|E] _]; lia. Qed.

  Lemma path_ok h : forall s s', tok t s -> tpath t plat s h s' -> tok t s'.
  Proof.
    induction h as [|e h IH]; intros s s' K H; inversion H; subst; [exact K|].
    match goal with A : ev_ok _ _ _, B : tpath _ _ _ _ _ |- _ => exact (IH _ _ (tstep_ok t plat Ht e s K A) B) end.
  Qed.

  (** ** Apart *)
  Lemma pd_addr_page w pd a : pend_ok t w pd -> pd_addr pd a -> pd_page t pd (a / P).
  Proof.
    assert (X : forall pg n o j, half t w pg n o j -> pg <= a < pg + 2 * (P * n) -> pg <= P * (a / P) < pg + 2 * (P * n)).
    { intros pg n o j H Ha. apply (half_page t Ht _ _ _ _ _ _ H). apply (page_in t Hg pg n a (hf_n _ _ _ _ _ _ H) (hf_align _ _ _ _ _ _ H)). exact Ha. }
    unfold pd_page, pd_addr. destruct pd; cbn [pend_ok]; try contradiction.
    - intros (n & o & -> & _ & H). exact (X _ _ _ _ H).
    - intros (n & o & -> & _ & H). exact (X _ _ _ _ H).
    - intros (n & o & j & -> & _ & _ & H). exact (X _ _ _ _ H).
    - destruct r as [pg|e| | |]; try contradiction. intros (n & o & -> & _ & H). exact (X _ _ _ _ H).
  Qed.
  Lemma tok_apart s x y a : tok t s -> x <> y -> occupies s x a -> occupies s y a -> False.
  Proof.
    intros K N. pose proof (tk_proc _ _ K) as PK. destruct (pok_apart t Ht _ PK) as (RR & RM & MM).
    assert (PR : forall k h, pc_ring (ts_p s) k = Some h -> ring_addr h a -> ring_page t h (a / P)).
    { intros k h Hk Ha. destruct (pk_ring _ _ PK _ _ Hk) as (_ & n & o & m & H). exact (ring_addr_page t Ht _ _ _ _ _ _ H Ha). }
    assert (PP : forall i pd, ts_pool s i = Some pd -> pd_addr pd a -> pd_page t pd (a / P)).
    { intros i pd Hi Ha. exact (pd_addr_page _ _ _ (tk_pend _ _ K _ _ Hi) Ha). }
    destruct x as [k1|k1|i1], y as [k2|k2|i2]; cbn [occupies]; intros (u & Hu & Au) (v & Hv & Av).
    - exact (MM _ _ _ _ _ Hu Hv ltac:(congruence) Au Av).
    - exact (RM _ _ _ _ _ Hv Hu Av Au).
    - exact (tk_maps _ _ K _ _ _ _ _ Hv Hu (map_addr_page t Ht _ _ Au) (PP _ _ Hv Av)).
    - exact (RM _ _ _ _ _ Hu Hv Au Av).
    - exact (RR _ _ _ _ _ Hu Hv ltac:(congruence) Au Av).
    - exact (tk_rings _ _ K _ _ _ _ _ Hv Hu (PR _ _ Hu Au) (PP _ _ Hv Av)).
    - exact (tk_maps _ _ K _ _ _ _ _ Hu Hv (map_addr_page t Ht _ _ Av) (PP _ _ Hu Au)).
    - exact (tk_rings _ _ K _ _ _ _ _ Hu Hv (PR _ _ Hv Av) (PP _ _ Hu Au)).
    - exact (tk_pages _ _ K _ _ _ _ _ Hu Hv ltac:(congruence) (PP _ _ Hu Au) (PP _ _ Hv Av)).
  Qed.
  Lemma tok_mapped s x a : tok t s -> occupies s x a -> w_vm (pc_w (ts_p s)) (a / P) <> None.
  Proof.
    intros K. pose proof (tk_proc _ _ K) as PK. destruct x as [k|k|i]; cbn [occupies]; intros (u & Hu & Au).
    - destruct (own_mapped_live t _ _ _ _ (pk_api _ _ PK) Hu (map_addr_page t Ht _ _ Au)) as (e & He). unfold pc_w. congruence.
    - destruct (pk_ring _ _ PK _ _ Hu) as (_ & n & o & m & H).
      destruct (ring_mapped t Ht _ _ _ _ PK Hu (ring_addr_page t Ht _ _ _ _ _ _ H Au)) as (e & He). congruence.
    - destruct (pend_mapped t Ht _ _ _ (tk_pend _ _ K _ _ Hu) (pd_addr_page _ _ _ (tk_pend _ _ K _ _ Hu) Au)) as (e & He). congruence.
  Qed.

  (** ** Rings, in between *)
  Lemma event_ring e s k h n o m : tok t s -> ev_ok t s e -> pc_ring (ts_p s) k = Some h -> at_home t (pc_w (ts_p s)) h n o m ->
    (forall c, e = ECall c -> ring_subject c <> Some k \/ (exists i, c = PICall k i /\ forall s, h <> HInf s) \/ (exists i, c = PCall k i /\ forall s, h <> HRing s)) ->
    pc_ring (ts_p (snd (tstep t plat e s))) k = Some h /\ at_home t (pc_w (ts_p (snd (tstep t plat e s)))) h n o m.
  Proof.
    intros K EO Hk H N. destruct e as [c|tid mut po path|tid mut po fd|tid inf hint clock|tid]; cbn [tstep].
    - destruct EO as (CO & _). pose proof (other_step t plat Ht c _ k h n o m (tk_proc _ _ K) CO Hk H (N c eq_refl)) as R.
      destruct (pstep t plat c (ts_p s)) as [x p']. exact R.
    - unfold begin. destruct (ts_pool s tid); auto.
    - unfold begin. destruct (ts_pool s tid); auto.
    - unfold begin. destruct (ts_pool s tid); auto. destruct (size_round (E:=error) t (size_alloc t) hint); auto.
    - destruct (ts_pool s tid) as [pd|] eqn:Hp; [|auto]. unfold go. destruct (advance t plat pd (pc_w (ts_p s))) as [out w'] eqn:E.
      pose proof (adv_staged t plat Ht _ _ _ _ (ok_wf _ _ (pk_api _ _ (tk_proc _ _ K))) (tk_pend _ _ K _ _ Hp) E) as St.
      pose proof (stage_home t Ht _ _ _ _ _ K Hp St k h n o m Hk H) as H'.
      destruct out as [pd'|mut own po fd mp|inf pg len|r]; cbn; (split; [|exact H']); try exact Hk.
      rewrite put_other; [exact Hk|]. intros ->. rewrite (pk_cnt _ _ (tk_proc _ _ K)) in Hk by lia. discriminate Hk.
  Qed.
  Lemma trun_cons e h s xs s2 : trun t plat (e :: h) s = (xs, s2) ->
    exists x xs', xs = x :: xs' /\ fst (tstep t plat e s) = x /\ trun t plat h (snd (tstep t plat e s)) = (xs', s2).
  Proof.
    cbn [trun]. destruct (tstep t plat e s) as [x p1]. destruct (trun t plat h p1) as [xs' p3] eqn:E. intros [= <- <-].
    exists x, xs'. auto.
  Qed.
  Lemma path_cons e h s s2 : tpath t plat s (e :: h) s2 -> ev_ok t s e /\ tpath t plat (snd (tstep t plat e s)) h s2.
  Proof. intros H. inversion H; subst. auto. Qed.
  Lemma not_call e s x : fst (tstep t plat e s) = x -> (forall c, e <> ECall c) -> forall xs, presults (x :: xs) = presults xs.
  Proof.
    intros <- N xs. cbn [presults]. enough (E : as_presult (fst (tstep t plat e s)) = []) by (rewrite E; reflexivity).
    destruct e as [c|tid mut po path|tid mut po fd|tid inf hint clock|tid]; cbn [tstep].
    - destruct (N c eq_refl).
    - unfold begin. destruct (ts_pool s tid); reflexivity.
    - unfold begin. destruct (ts_pool s tid); reflexivity.
    - unfold begin. destruct (ts_pool s tid); [reflexivity|]. destruct (size_round (E:=error) t (size_alloc t) hint); reflexivity.
    - destruct (ts_pool s tid) as [pd|]; [|reflexivity]. unfold go. destruct (advance t plat pd (pc_w (ts_p s))) as [out w'] eqn:E.
      destruct out as [pd'|mut own po fd mp|inf pg len|r]; try reflexivity. cbn [fst].
      destruct pd; cbn [advance] in E; unfold then_, map_fail in E;
      repeat match type of E with
      | (match ?x with _ => _ end) = _ => destruct x; try discriminate E
      | context [match ?x with Some _ => _ | None => _ end] => destruct x; try discriminate E
      end; try discriminate E; try (injection E as <- _; reflexivity);
      destruct own; try discriminate E; injection E as <- _; reflexivity.
  Qed.

  Lemma ring_between h : forall p xs p2 k s n o m T R acc, tok t p -> tpath t plat p h p2 -> trun t plat h p = (xs, p2) ->
    pc_ring (ts_p p) k = Some (HRing s) -> at_home t (pc_w (ts_p p)) (HRing s) n o m -> inv t (abs s m) T R -> T <= acc ->
    history_ok t acc (k_len s) (calls_on k (pcalls h)) ->
    q_answers (absq (abs s m) T R) (calls_on k (pcalls h)) (answers_on k (pcalls h) (presults xs)).
  Proof.
    induction h as [|ev h IH]; intros p xs p2 k s n o m T R acc K F E Hk H I HT Ho.
    - injection E as <- <-. constructor.
    - apply path_cons in F as [EO F]. apply trun_cons in E as (x & xs' & -> & Ex & E).
      pose proof (tstep_ok t plat Ht ev p K EO) as K1.
      assert (Other : (forall c, ev = ECall c -> ring_subject c <> Some k \/ exists i, c = PICall k i) ->
        history_ok t acc (k_len s) (calls_on k (pcalls h)) -> q_answers (absq (abs s m) T R) (calls_on k (pcalls h)) (answers_on k (pcalls h) (presults xs'))).
      { intros N Ho'. destruct (event_ring ev p k _ n o m K EO Hk H) as [Hk1 H1].
        { intros c Ec. destruct (N c Ec) as [N1|(i & N1)]; [left; exact N1|right; left]. exists i. split; [exact N1|discriminate]. }
        exact (IH _ _ _ _ _ _ _ _ _ _ _ K1 F E Hk1 H1 I HT Ho'). }
      destruct ev as [c|tid mut po path|tid mut po fd|tid inf hint clock|tid].
      2,3,4,5: rewrite (not_call _ _ _ Ex) by discriminate; apply Other; [discriminate|exact Ho].
      cbn [tstep] in *. destruct EO as (CO & On & _). destruct (pstep t plat c (ts_p p)) as [y0 p1] eqn:Ep. cbn [fst snd] in *. subst x. cbn [presults as_presult pcalls as_pcall app] in *.
      destruct c as [c|hint clock|hint clock|k2 c|k2 c|k2]; cbn [calls_on answers_on] in *.
      + apply Other; auto; intros ? [= <-]; left; discriminate.
      + apply Other; auto; intros ? [= <-]; left; discriminate.
      + apply Other; auto; intros ? [= <-]; left; discriminate.
      + destruct (Z.eqb_spec k2 k) as [->|N]; [|apply Other; auto; intros ? [= <-]; left; cbn; congruence].
        cbn [history_ok] in Ho. destruct Ho as (Hc & Hpos & Ho). cbn [pstep] in Ep. rewrite Hk in Ep.
        destruct (pk_ring _ _ (tk_proc _ _ K) _ _ Hk) as (Fs & _).
        pose proof (ring_call_spec t Ht s (pc_w (ts_p p)) n o m c H Fs Hc) as A. unfold agrees, agr in A.
        destruct (step_sim t HB (abs s m) T R c acc I HT Hc Hpos) as [[Q _]|[NQ (r' & y & T' & R' & Er & I' & HT' & Qs & El)]].
        * rewrite (ring_panics t Ht s (pc_w (ts_p p)) m T R c I Hc Q) in Ep. injection Ep as <- <-. cbn [ring_answer app].
          apply qa_panic; [exact Q|].
          refine (IH _ _ _ _ s n o m T R (next_total acc (k_len s) c) K1 F E _ _ I _ Ho).
          -- cbn. apply put_same.
          -- exact H.
          -- destruct c; try (exfalso; exact Q); cbn; [lia|]. pose proof (zlen_nonneg b). pose proof (inv_len _ _ _ _ I). cbn in *. lia.
        * rewrite Er in A. destruct A as (s' & w' & Es & Eabs & Fs' & Rg & O). rewrite Es in Ep. injection Ep as <- <-. cbn [ring_answer app].
          apply (qa_ok _ _ _ (absq r' T' R')); [exact NQ|exact Qs|]. pose proof Fs' as (E1 & E2 & _).
          rewrite Eabs in I' |- *. refine (IH _ _ _ _ s' n o (r_mem r') T' R' (next_total acc (k_len s) c) K1 F E _ _ I' HT' _).
          -- cbn. apply put_same.
          -- destruct H as [L R0 [Pv1 Pv2 Pv3] Lo Hi]. cbn [h_alloc ra_ptr ra_len] in *.
             split; cbn [h_alloc ra_ptr ra_len]; rewrite ?E1, ?E2; try assumption.
             split; cbn; [rewrite (oi_next _ _ _ O)|rewrite (oi_fd _ _ _ O)|rewrite (oi_fs _ _ _ O)]; assumption.
          -- rewrite E2. exact Ho.
      + destruct (Z.eqb_spec k2 k) as [->|N]; [|apply Other; auto; intros ? [= <-]; left; cbn; congruence].
        assert (X : ring_answer y0 = []) by (cbn [pstep] in Ep; rewrite Hk in Ep; injection Ep as <- <-; reflexivity). rewrite X. cbn [app].
        apply Other; [|exact Ho]. intros ? [= <-]. eauto.
      + destruct (Z.eqb_spec k2 k) as [->|N]; [constructor|apply Other; auto; intros ? [= <-]; left; cbn; congruence].
  Qed.

  Lemma inf_between h : forall p xs p2 k s n o m T acc, tok t p -> tpath t plat p h p2 -> trun t plat h p = (xs, p2) ->
    pc_ring (ts_p p) k = Some (HInf s) -> at_home t (pc_w (ts_p p)) (HInf s) n o m -> iinv t (iabs s m) T -> T <= acc ->
    ihistory_ok t acc (ki_len s) (icalls_on k (pcalls h)) ->
    lq_answers (abst (iabs s m) T) (icalls_on k (pcalls h)) (answers_on k (pcalls h) (presults xs)).
  Proof.
    induction h as [|ev h IH]; intros p xs p2 k s n o m T acc K F E Hk H I HT Ho.
    - injection E as <- <-. constructor.
    - apply path_cons in F as [EO F]. apply trun_cons in E as (x & xs' & -> & Ex & E).
      pose proof (tstep_ok t plat Ht ev p K EO) as K1.
      assert (Other : (forall c, ev = ECall c -> ring_subject c <> Some k \/ exists i, c = PCall k i) ->
        ihistory_ok t acc (ki_len s) (icalls_on k (pcalls h)) -> lq_answers (abst (iabs s m) T) (icalls_on k (pcalls h)) (answers_on k (pcalls h) (presults xs'))).
      { intros N Ho'. destruct (event_ring ev p k _ n o m K EO Hk H) as [Hk1 H1].
        { intros c Ec. destruct (N c Ec) as [N1|(i & N1)]; [left; exact N1|right; right]. exists i. split; [exact N1|discriminate]. }
        exact (IH _ _ _ _ _ _ _ _ _ _ K1 F E Hk1 H1 I HT Ho'). }
      destruct ev as [c|tid mut po path|tid mut po fd|tid inf hint clock|tid].
      2,3,4,5: rewrite (not_call _ _ _ Ex) by discriminate; apply Other; [discriminate|exact Ho].
      cbn [tstep] in *. destruct EO as (CO & On & _). destruct (pstep t plat c (ts_p p)) as [y0 p1] eqn:Ep. cbn [fst snd] in *. subst x. cbn [presults as_presult pcalls as_pcall app] in *.
      destruct c as [c|hint clock|hint clock|k2 c|k2 c|k2]; cbn [icalls_on answers_on] in *.
      + apply Other; auto; intros ? [= <-]; left; discriminate.
      + apply Other; auto; intros ? [= <-]; left; discriminate.
      + apply Other; auto; intros ? [= <-]; left; discriminate.
      + destruct (Z.eqb_spec k2 k) as [->|N]; [|apply Other; auto; intros ? [= <-]; left; cbn; congruence].
        assert (X : ring_answer y0 = []) by (cbn [pstep] in Ep; rewrite Hk in Ep; injection Ep as <- <-; reflexivity). rewrite X. cbn [app].
        apply Other; [|exact Ho]. intros ? [= <-]. eauto.
      + destruct (Z.eqb_spec k2 k) as [->|N]; [|apply Other; auto; intros ? [= <-]; left; cbn; congruence].
        cbn [ihistory_ok] in Ho. destruct Ho as (Hc & Hpos & Ho). cbn [pstep] in Ep. rewrite Hk in Ep.
        destruct (pk_ring _ _ (tk_proc _ _ K) _ _ Hk) as (Fs & _).
        pose proof (inf_call_spec t Ht s (pc_w (ts_p p)) n o m c H Fs CO) as A. unfold iagrees, agr in A.
        destruct (istep_sim t HB (iabs s m) T c acc I HT Hc Hpos) as [[Q _]|[NQ (r' & y & T' & Er & I' & HT' & Qs & El)]].
        * rewrite (inf_panics t Ht s (pc_w (ts_p p)) m T c I CO Q) in Ep. injection Ep as <- <-. cbn [ring_answer app].
          apply la_panic; [exact Q|].
          refine (IH _ _ _ _ s n o m T (acc + irop_weight (ki_len s) c) K1 F E _ _ I _ Ho).
          -- cbn. apply put_same.
          -- exact H.
          -- destruct c; try (exfalso; exact Q); cbn; lia.
        * rewrite Er in A. destruct A as (s' & w' & Es & Eabs & Fs' & Rg & O). rewrite Es in Ep. injection Ep as <- <-. cbn [ring_answer app].
          apply (la_ok _ _ _ (abst r' T')); [exact NQ|exact Qs|]. pose proof Fs' as (E1 & E2 & _).
          rewrite Eabs in I' |- *. refine (IH _ _ _ _ s' n o (i_mem r') T' (acc + irop_weight (ki_len s) c) K1 F E _ _ I' HT' _).
          -- cbn. apply put_same.
          -- destruct H as [L R0 [Pv1 Pv2 Pv3] Lo Hi]. cbn [h_alloc ra_ptr ra_len] in *.
             split; cbn [h_alloc ra_ptr ra_len]; rewrite ?E1, ?E2; try assumption.
             split; cbn; [rewrite (oi_next _ _ _ O)|rewrite (oi_fd _ _ _ O)|rewrite (oi_fs _ _ _ O)]; assumption.
          -- rewrite E2. exact Ho.
      + destruct (Z.eqb_spec k2 k) as [->|N]; [constructor|apply Other; auto; intros ? [= <-]; left; cbn; congruence].
  Qed.

End Claims.
