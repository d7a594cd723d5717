(** Rings in interleavings of any length on macOS: lemmas. *)
From Coq Require Import Lia.
From Verif Require Import Base Spec ErrorModel RingSpec RingModel SizeModel SizeProofs SeqProofs OsModel OthersModel MapModel MapSpec OsProofs MapProofs MapCreate MapOps
  ApiModel ApiSpec OthersProofs ApiProofs RingMapModel RingMapSpec MirrorProofs RingMapClaims RingProofs IRingProofs RingWeak MemRingModel MemRingProofs
  ProcModel ProcSpec ProcFrame ProcProofs ProcClaims RingTheorems RingClaims RingExactSpec RingExact RingExactClaims ProcExactSpec
  ThreadModel ThreadSpec ThreadFrame ThreadProofs ThreadInv ThreadClaims ThreadClaims2 ThreadClaims3
  MachModel MachSpec MachProofs MachClaims MachProcModel MachProcSpec MachProcProofs MachThreadModel MachThreadSpec MachThreadFrame MachThreadProofs MachThreadInv MachThreadClaims MachThreadClaims2 ProcExact ThreadExact.

Section Exact.
  Variable t : target.
  Hypothesis Ht : posix_target t.
  Let Hg : good_target t := proj1 Ht.
  Let HB : 32 <= t_bits t <= 64.
  Proof. destruct Hg as [[E|E] _]; lia. Qed.

  Lemma mring_between_exact h : forall p xs p2 k s n o m T R, mok t p -> mtpath t p h p2 -> mtrun t h p = (xs, p2) ->
    pc_ring (ms_p p) k = Some (HRing s) -> at_home t (pc_w (ms_p p)) (HRing s) n o m -> inv t (abs s m) T R ->
    exact_positions t (k_len s) ->
    qx_answers (t_checks t) T (absq (abs s m) T R) (calls_on k (pcalls h)) (answers_on k (pcalls h) (presults xs)).
  Proof.
    induction h as [|ev h IH]; intros p xs p2 k s n o m T R K F E Hk H I EX.
    - injection E as <- <-. constructor.
    - apply mpath_cons in F as [EO F]. apply mtrun_cons in E as (x & xs' & -> & Ex & E).
      pose proof (mtstep_ok t Ht ev p K EO) as K1.
      assert (Other : (forall c, ev = ECall c -> ring_subject c <> Some k \/ exists i, c = PICall k i) ->
        qx_answers (t_checks t) T (absq (abs s m) T R) (calls_on k (pcalls h)) (answers_on k (pcalls h) (presults xs'))).
      { intros N. destruct (mevent_ring t Ht ev p k _ n o m K EO Hk H) as [Hk1 H1].
        { intros c Ec. destruct (N c Ec) as [N1|(i & N1)]; [left; exact N1|right; left]. exists i. split; [exact N1|discriminate]. }
        exact (IH _ _ _ _ _ _ _ _ _ _ K1 F E Hk1 H1 I EX). }
      destruct ev as [c|tid mut po path|tid mut po fd|tid inf hint clock|tid].
      2,3,4,5: rewrite (mnot_call t _ _ _ Ex) by discriminate; apply Other; discriminate.
      destruct EO as ((CO & On & _) & _). rewrite (call_posix t Ht c p K On) in *. cbn [tstep] in *. change (ts_p (ms_t p)) with (ms_p p) in *.
      destruct (pstep t Anonymous c (ms_p p)) as [y0 p1] eqn:Ep. cbn [on_posix fst snd] in *. subst x. cbn [presults as_presult pcalls as_pcall app] in *.
      destruct c as [c|hint clock|hint clock|k2 c|k2 c|k2]; cbn [calls_on answers_on] in *.
      + apply Other; auto; intros ? [= <-]; left; discriminate.
      + apply Other; auto; intros ? [= <-]; left; discriminate.
      + apply Other; auto; intros ? [= <-]; left; discriminate.
      + destruct (Z.eqb_spec k2 k) as [->|N]; [|apply Other; auto; intros ? [= <-]; left; cbn; congruence].
        pose proof CO as Hc. cbn [pstep] in Ep. rewrite Hk in Ep.
        destruct (pk_ring _ _ (tk_proc _ _ (mk_t _ _ K)) _ _ Hk) as (Fs & _).
        pose proof (ring_call_spec t Ht s (pc_w (ms_p p)) n o m c H Fs Hc) as A. unfold agrees, agr in A.
        destruct (step_exact t Hg (abs s m) T R c I Hc EX) as [[[Q|[C O]] Er]|(NQ & r' & y & R' & Er & I' & Qs & El)].
        * rewrite (ring_panics t Ht s (pc_w (ms_p p)) m T R c I Hc Q) in Ep. injection Ep as <- <-. cbn [ring_answer app].
          apply qxa_panic; [exact Q|].
          refine (IH _ _ _ _ s n o m T R K1 F E _ _ I EX).
          -- cbn. apply put_same.
          -- exact H.
        * rewrite Er in A. destruct A as (s' & w' & m' & Es & _). rewrite Es in Ep. injection Ep as <- <-. cbn [ring_answer app].
          apply qxa_over; assumption.
        * rewrite Er in A. destruct A as (s' & w' & Es & Eabs & Fs' & Rg & O). rewrite Es in Ep. injection Ep as <- <-. cbn [ring_answer app].
          apply (qxa_ok _ _ _ _ _ (absq r' (qx_count T (absq (abs s m) T R) c) R')); [exact NQ|exact Qs|]. pose proof Fs' as (E1 & E2 & _).
          rewrite Eabs in I' |- *. refine (IH _ _ _ _ s' n o (r_mem r') _ R' K1 F E _ _ I' _).
          -- cbn. apply put_same.
          -- destruct H as [L R0 [Pv1 Pv2 Pv3] Lo Hi]. cbn [h_alloc ra_ptr ra_len] in *.
             split; cbn [h_alloc ra_ptr ra_len]; rewrite ?E1, ?E2; try assumption.
             split; cbn; [rewrite (oi_next _ _ _ O)|rewrite (oi_fd _ _ _ O)|rewrite (oi_fs _ _ _ O)]; assumption.
          -- rewrite E2. exact EX.
      + destruct (Z.eqb_spec k2 k) as [->|N]; [|apply Other; auto; intros ? [= <-]; left; cbn; congruence].
        assert (X : ring_answer y0 = []) by (cbn [pstep] in Ep; rewrite Hk in Ep; injection Ep as <- <-; reflexivity). rewrite X. cbn [app].
        apply Other. intros ? [= <-]. eauto.
      + destruct (Z.eqb_spec k2 k) as [->|N]; [constructor|apply Other; auto; intros ? [= <-]; left; cbn; congruence].
  Qed.

  Lemma minf_between_exact h : forall p xs p2 k s n o m T, mok t p -> mtpath t p h p2 -> mtrun t h p = (xs, p2) ->
    pc_ring (ms_p p) k = Some (HInf s) -> at_home t (pc_w (ms_p p)) (HInf s) n o m -> iinv t (iabs s m) T ->
    exact_positions t (ki_len s) -> Forall (irop_ok t (ki_len s)) (icalls_on k (pcalls h)) ->
    lqx_answers (t_checks t) T (abst (iabs s m) T) (icalls_on k (pcalls h)) (answers_on k (pcalls h) (presults xs)).
  Proof.
    induction h as [|ev h IH]; intros p xs p2 k s n o m T K F E Hk H I EX Ho.
    - injection E as <- <-. constructor.
    - apply mpath_cons in F as [EO F]. apply mtrun_cons in E as (x & xs' & -> & Ex & E).
      pose proof (mtstep_ok t Ht ev p K EO) as K1.
      assert (Other : (forall c, ev = ECall c -> ring_subject c <> Some k \/ exists i, c = PCall k i) ->
        Forall (irop_ok t (ki_len s)) (icalls_on k (pcalls h)) -> lqx_answers (t_checks t) T (abst (iabs s m) T) (icalls_on k (pcalls h)) (answers_on k (pcalls h) (presults xs'))).
      { intros N Ho'. destruct (mevent_ring t Ht ev p k _ n o m K EO Hk H) as [Hk1 H1].
        { intros c Ec. destruct (N c Ec) as [N1|(i & N1)]; [left; exact N1|right; right]. exists i. split; [exact N1|discriminate]. }
        exact (IH _ _ _ _ _ _ _ _ _ K1 F E Hk1 H1 I EX Ho'). }
      destruct ev as [c|tid mut po path|tid mut po fd|tid inf hint clock|tid].
      2,3,4,5: rewrite (mnot_call t _ _ _ Ex) by discriminate; apply Other; [discriminate|exact Ho].
      destruct EO as ((CO & On & _) & _). rewrite (call_posix t Ht c p K On) in *. cbn [tstep] in *. change (ts_p (ms_t p)) with (ms_p p) in *.
      destruct (pstep t Anonymous c (ms_p p)) as [y0 p1] eqn:Ep. cbn [on_posix fst snd] in *. subst x. cbn [presults as_presult pcalls as_pcall app] in *.
      destruct c as [c|hint clock|hint clock|k2 c|k2 c|k2]; cbn [icalls_on answers_on] in *.
      + apply Other; auto; intros ? [= <-]; left; discriminate.
      + apply Other; auto; intros ? [= <-]; left; discriminate.
      + apply Other; auto; intros ? [= <-]; left; discriminate.
      + destruct (Z.eqb_spec k2 k) as [->|N]; [|apply Other; auto; intros ? [= <-]; left; cbn; congruence].
        assert (X : ring_answer y0 = []) by (cbn [pstep] in Ep; rewrite Hk in Ep; injection Ep as <- <-; reflexivity). rewrite X. cbn [app].
        apply Other; [|exact Ho]. intros ? [= <-]. eauto.
      + destruct (Z.eqb_spec k2 k) as [->|N]; [|apply Other; auto; intros ? [= <-]; left; cbn; congruence].
        apply Forall_cons_iff in Ho as [Hc Ho]. cbn [pstep] in Ep. rewrite Hk in Ep.
        destruct (pk_ring _ _ (tk_proc _ _ (mk_t _ _ K)) _ _ Hk) as (Fs & _).
        pose proof (inf_call_spec t Ht s (pc_w (ms_p p)) n o m c H Fs CO) as A. unfold iagrees, agr in A.
        destruct (istep_exact t Hg (iabs s m) T c I Hc EX) as [[[Q|[C O]] Er]|(NQ & r' & y & Er & I' & Qs & El)].
        * rewrite (inf_panics t Ht s (pc_w (ms_p p)) m T c I CO Q) in Ep. injection Ep as <- <-. cbn [ring_answer app].
          apply lxa_panic; [exact Q|].
          refine (IH _ _ _ _ s n o m T K1 F E _ _ I EX Ho).
          -- cbn. apply put_same.
          -- exact H.
        * rewrite Er in A. destruct A as (s' & w' & m' & Es & _). rewrite Es in Ep. injection Ep as <- <-. cbn [ring_answer app].
          apply lxa_over; assumption.
        * rewrite Er in A. destruct A as (s' & w' & Es & Eabs & Fs' & Rg & O). rewrite Es in Ep. injection Ep as <- <-. cbn [ring_answer app].
          apply (lxa_ok _ _ _ _ _ (abst r' (T + lq_enters (abst (iabs s m) T) c))); [exact NQ|exact Qs|]. pose proof Fs' as (E1 & E2 & _).
          rewrite Eabs in I' |- *. refine (IH _ _ _ _ s' n o (i_mem r') _ K1 F E _ _ I' _ _).
          -- cbn. apply put_same.
          -- destruct H as [L R0 [Pv1 Pv2 Pv3] Lo Hi]. cbn [h_alloc ra_ptr ra_len] in *.
             split; cbn [h_alloc ra_ptr ra_len]; rewrite ?E1, ?E2; try assumption.
             split; cbn; [rewrite (oi_next _ _ _ O)|rewrite (oi_fd _ _ _ O)|rewrite (oi_fs _ _ _ O)]; assumption.
          -- rewrite E2. exact EX.
          -- rewrite E2. exact Ho.
      + destruct (Z.eqb_spec k2 k) as [->|N]; [constructor|apply Other; auto; intros ? [= <-]; left; cbn; congruence].
  Qed.
  Lemma mring_thread_exact s0 tid hint clock h s2 k s3 h' xs s4 : mok t s0 -> mev_ok t s0 (ERing tid false hint clock) -> busy s0 tid = false ->
    mtpath t (snd (mtstep t (ERing tid false hint clock) s0)) h s2 -> Forall (fun e => starts e <> Some tid) h ->
    mtstep t (EGo tid) s2 = (TRing (Ret k), s3) -> mtpath t s3 h' s4 -> mtrun t h' s3 = (xs, s4) ->
    exists cap, is_ceil (t_alloc t) hint cap /\
      (exact_positions t cap ->
       qx_answers (t_checks t) 0 {| q_data := []; q_free := zeros cap |} (calls_on k (pcalls h')) (answers_on k (pcalls h') (presults xs))).
  Proof.
    intros K0 EO N0 H F G H' Er. destruct (mring_made t Ht _ _ _ _ _ _ _ _ _ K0 EO N0 H F G) as (K3 & cap & pg & n & o & IC & L1 & L2 & _ & Hk & Hm).
    exists cap. split; [exact IC|]. intros EX. pose proof (make_inv t HB cap (fun _ => 0) L1 ltac:(lia)) as I.
    replace {| q_data := []; q_free := zeros cap |} with (absq (abs (kring_new pg cap) (fun _ => 0)) 0 0).
    - exact (mring_between_exact h' s3 xs s4 k (kring_new pg cap) n o _ 0 0 K3 H' Er Hk Hm I EX).
    - unfold absq. cbn [abs kring_new r_mem r_len k_len]. rewrite !Z.sub_0_r. rewrite view_zeros by exact L1. reflexivity.
  Qed.
  Lemma minf_thread_exact s0 tid hint clock h s2 k s3 h' xs s4 : mok t s0 -> mev_ok t s0 (ERing tid true hint clock) -> busy s0 tid = false ->
    mtpath t (snd (mtstep t (ERing tid true hint clock) s0)) h s2 -> Forall (fun e => starts e <> Some tid) h ->
    mtstep t (EGo tid) s2 = (TRing (Ret k), s3) -> mtpath t s3 h' s4 -> mtrun t h' s3 = (xs, s4) ->
    exists cap, is_ceil (t_alloc t) hint cap /\
      (exact_positions t cap -> Forall (irop_ok t cap) (icalls_on k (pcalls h')) ->
       lqx_answers (t_checks t) 0 {| lq_tape := zeros cap; lq_len := 0 |} (icalls_on k (pcalls h')) (answers_on k (pcalls h') (presults xs))).
  Proof.
    intros K0 EO N0 H F G H' Er. destruct (mring_made t Ht _ _ _ _ _ _ _ _ _ K0 EO N0 H F G) as (K3 & cap & pg & n & o & IC & L1 & L2 & _ & Hk & Hm).
    exists cap. split; [exact IC|]. intros EX Ho. pose proof (imake_inv t HB cap (fun _ => 0) L1 L2) as I.
    replace {| lq_tape := zeros cap; lq_len := 0 |} with (abst (iabs (kiring_new pg cap) (fun _ => 0)) 0).
    - exact (minf_between_exact h' s3 xs s4 k (kiring_new pg cap) n o _ 0 K3 H' Er Hk Hm I EX Ho).
    - unfold abst. cbn [iabs kiring_new i_mem i_len i_rlen ki_len ki_rlen]. rewrite view_zeros by exact L1. reflexivity.
  Qed.

  (** ** The converse *)
  Lemma mcalls_run cs : Forall (fun c => pcall_ok t c /\ one_step c = true /\ forall fd, c <> PMap (CClose fd)) cs ->
    forall s xs p2, mok t s -> prun t Anonymous cs (ms_p s) = (xs, p2) ->
    exists s2, mtpath t s (map ECall cs) s2 /\ mtrun t (map ECall cs) s = (map TCall xs, s2).
  Proof.
    induction 1 as [|c cs (Hc & On & Nc) F IH]; intros s xs p2 K E.
    - injection E as <- <-. exists s. split; [constructor|reflexivity].
    - cbn [prun] in E. destruct (pstep t Anonymous c (ms_p s)) as [x p1] eqn:E1. destruct (prun t Anonymous cs p1) as [ys p3] eqn:E2. injection E as <- <-.
      assert (EO : mev_ok t s (ECall c)).
      { split; [|exact Logic.I]. split; [exact Hc|split; [exact On|]]. intros fd tid pd Ec. destruct (Nc fd Ec). }
      pose proof (mtstep_ok t Ht (ECall c) s K EO) as K1. pose proof (call_posix t Ht c s K On) as S1.
      cbn [tstep] in S1. change (ts_p (ms_t s)) with (ms_p s) in S1. rewrite E1 in S1. cbn [on_posix] in S1. rewrite S1 in K1. cbn [snd] in K1.
      destruct (IH _ ys p3 K1 E2) as (s2 & H & Er). exists s2. cbn [map]. split.
      + apply mtp_cons; [exact EO|]. rewrite S1. exact H.
      + cbn [mtrun]. rewrite S1, Er. reflexivity.
  Qed.
  Theorem mring_thread_iff s0 tid hint clock h s2 k s3 : mok t s0 -> mev_ok t s0 (ERing tid false hint clock) -> busy s0 tid = false ->
    mtpath t (snd (mtstep t (ERing tid false hint clock) s0)) h s2 -> Forall (fun e => starts e <> Some tid) h ->
    mtstep t (EGo tid) s2 = (TRing (Ret k), s3) ->
    exists cap, is_ceil (t_alloc t) hint cap /\
      (exact_positions t cap <-> forall h' xs s4, mtpath t s3 h' s4 -> mtrun t h' s3 = (xs, s4) ->
       qx_answers (t_checks t) 0 {| q_data := []; q_free := zeros cap |} (calls_on k (pcalls h')) (answers_on k (pcalls h') (presults xs))).
  Proof.
    intros K0 EO N0 H F G. destruct (mring_made t Ht _ _ _ _ _ _ _ _ _ K0 EO N0 H F G) as (K3 & cap & pg & n & o & IC & L1 & L2 & _ & Hk & Hm).
    exists cap. split; [exact IC|]. split.
    - intros EX h' xs s4 H' Er. destruct (mring_thread_exact _ _ _ _ _ _ _ _ _ _ _ K0 EO N0 H F G H' Er) as (cap' & IC' & A).
      assert (cap' = cap) as -> by exact (ceil_unique _ _ _ _ IC' IC). exact (A EX).
    - intros A. destruct (exact_dec t cap) as [D|D]; [exact D|]. exfalso. destruct (ring_jump t Hg cap L1 L2 D) as (os & Ho & N). apply N.
      destruct (prun t Anonymous (map (PCall k) os) (ms_p s3)) as [xs p4] eqn:Er.
      destruct (mcalls_run (map (PCall k) os)) with (s := s3) (xs := xs) (p2 := p4) as (s4 & H' & Er'); [|exact K3|exact Er|].
      { apply Forall_map. refine (Forall_impl _ _ Ho). intros a Ha. split; [exact Ha|]. split; [reflexivity|discriminate]. }
      specialize (A _ _ _ H' Er'). rewrite pcalls_calls, presults_calls, calls_on_map in A. replace (view (fun _ => 0) 0 cap) with (zeros cap).
      + exact (ring_replies_of t Anonymous Ht os (ms_p s3) xs p4 k (kring_new pg cap) n o (fun _ => 0) _ _ (tk_proc _ _ (mk_t _ _ K3)) Ho Er Hk Hm A).
      + symmetry. apply view_zeros'.
  Qed.
  Theorem minf_thread_iff s0 tid hint clock h s2 k s3 : mok t s0 -> mev_ok t s0 (ERing tid true hint clock) -> busy s0 tid = false ->
    mtpath t (snd (mtstep t (ERing tid true hint clock) s0)) h s2 -> Forall (fun e => starts e <> Some tid) h ->
    mtstep t (EGo tid) s2 = (TRing (Ret k), s3) ->
    exists cap, is_ceil (t_alloc t) hint cap /\
      (exact_positions t cap <-> forall h' xs s4, mtpath t s3 h' s4 -> Forall (irop_ok t cap) (icalls_on k (pcalls h')) -> mtrun t h' s3 = (xs, s4) ->
       lqx_answers (t_checks t) 0 {| lq_tape := zeros cap; lq_len := 0 |} (icalls_on k (pcalls h')) (answers_on k (pcalls h') (presults xs))).
  Proof.
    intros K0 EO N0 H F G. destruct (mring_made t Ht _ _ _ _ _ _ _ _ _ K0 EO N0 H F G) as (K3 & cap & pg & n & o & IC & L1 & L2 & _ & Hk & Hm).
    exists cap. split; [exact IC|]. split.
    - intros EX h' xs s4 H' Fi Er. destruct (minf_thread_exact _ _ _ _ _ _ _ _ _ _ _ K0 EO N0 H F G H' Er) as (cap' & IC' & A).
      assert (cap' = cap) as -> by exact (ceil_unique _ _ _ _ IC' IC). exact (A EX Fi).
    - intros A. destruct (exact_dec t cap) as [D|D]; [exact D|]. exfalso. destruct (iring_jump t Hg cap L1 L2 D) as (os & Ho & N). apply N.
      assert (Ho' : Forall (irop_args t) os) by (refine (Forall_impl _ _ Ho); intros a; apply irop_ok_args).
      destruct (prun t Anonymous (map (PICall k) os) (ms_p s3)) as [xs p4] eqn:Er.
      destruct (mcalls_run (map (PICall k) os)) with (s := s3) (xs := xs) (p2 := p4) as (s4 & H' & Er'); [|exact K3|exact Er|].
      { apply Forall_map. refine (Forall_impl _ _ Ho'). intros a Ha. split; [exact Ha|]. split; [reflexivity|discriminate]. }
      pose proof (fun X => A _ _ _ H' X Er') as A'. rewrite pcalls_calls, presults_calls, icalls_on_map in A'. replace (view (fun _ => 0) 0 cap) with (zeros cap).
      + exact (inf_replies_of t Anonymous Ht os (ms_p s3) xs p4 k (kiring_new pg cap) n o (fun _ => 0) _ _ (tk_proc _ _ (mk_t _ _ K3)) Ho' Er Hk Hm (A' Ho)).
      + symmetry. apply view_zeros'.
  Qed.
End Exact.
