(** Rings in interleavings of any length on Windows: lemmas. *)
From Coq Require Import Lia.
From Verif Require Import Base Spec ErrorModel RingSpec RingModel SizeModel OsModel MapModel MapSpec RingMapModel RingMapSpec SizeProofs OsProofs
  MapProofs MapCreate MapOps MirrorProofs RingMapClaims RingProofs IRingProofs RingWeak SeqProofs MemRingModel MemRingProofs ApiModel ApiSpec ApiProofs ProcModel ProcSpec
  ProcFrame ProcProofs ProcPages ProcClaims
  WinModel WinSpec WinProofs WinClaims WinCalls WinMapModel WinMapSpec WinSpace WinKeep WinMapProofs WinAlloc WinThings WinHist WinLeak WinMapClaims
  WinProcModel WinProcSpec WinProcProofs WinProcClaims WinLedgerSpec WinLedger WinThreadModel WinThreadSpec WinThreadInv WinThreadAdv WinThreadStep WinThreadClaims WinThreadClaims2
  RingTheorems RingClaims RingExactSpec RingExact RingExactClaims ProcExactSpec ProcExact WinProcExact.

Section Exact.
  Variable t : target.
  Hypothesis Ht : good_target t.
  Let HG : good_target t := Ht.
  Let HB : 32 <= t_bits t <= 64.
  Proof. destruct HG as [[E|E] _]; lia. Qed.

  Lemma wering_exact s0 h : forall p xs p2 k s o m T R, wtok t s0 p -> Forall (wev_ok t) h -> wtrun t h p = (xs, p2) ->
    wp_ring (wt_p p) k = Some (HRing s) -> g_tab (wp_g (wt_p p)) k = Some (TRing (h_alloc (HRing s)) o) ->
    rst t (wp_g (wt_p p)) (h_alloc (HRing s)) o (g_s (wp_g (wt_p p))) m -> inv t (abs s m) T R ->
    exact_positions t (k_len s) ->
    qx_answers (t_checks t) T (absq (abs s m) T R) (wcalls_on k (wecalls h)) (wanswers_on k (wecalls h) (weresults h xs)).
  Proof.
    induction h as [|e h IH]; intros p xs p2 k s o m T R K F E Hk Hg H I EX.
    - injection E as <- <-. constructor.
    - apply Forall_cons_iff in F as [CO F]. apply wtrun_cons in E as (x & xs' & -> & Ex & E). pose proof (event_ok t Ht s0 p e K CO) as K1.
      assert (Other : (forall c, e = WECall c -> wp_subject c <> Some k \/ (exists i, c = WICall k i)) -> (forall tid, e <> WEDrop tid k) ->
        qx_answers (t_checks t) T (absq (abs s m) T R) (wcalls_on k (wecalls h)) (wanswers_on k (wecalls h) (weresults h xs'))).
      { intros N Nd. destruct (event_ring t Ht s0 p e k _ o m K CO Hk Hg H) as (Hk1 & Hg1 & H1).
        { intros c Ec. destruct (N c Ec) as [Nc|(i & Nc)]; [left; exact Nc|right; left]. exists i. split; [exact Nc|discriminate]. }
        { exact Nd. }
        exact (IH _ _ _ _ _ _ _ _ _ K1 F E Hk1 Hg1 H1 I EX). }
      destruct e as [c|tid mut o' path|tid mut o' fd|tid mut o'|tid inf hint|tid j|tid].
      + assert (Xc : exists x', x = WTCall x' /\ x' = fst (wpstep t c (wt_p p))).
        { rewrite Ex. cbn [wtstep]. destruct (wpstep t c (wt_p p)) as [y p']. cbn. eauto. }
        destruct Xc as (x' & -> & Ex'). clear Ex. cbn [wecalls weresults]. destruct c as [a|hint|hint|k2 c|k2 c|k2]; cbn [wcalls_on wanswers_on wecalls] in *.
        * apply Other; auto; [intros c [= <-]; left; discriminate|discriminate].
        * apply Other; auto; [intros c [= <-]; left; discriminate|discriminate].
        * apply Other; auto; [intros c [= <-]; left; discriminate|discriminate].
        * destruct (Z.eqb_spec k2 k) as [->|N]; [|apply Other; auto; [intros c' [= <-]; left; cbn; congruence|discriminate]].
          cbn [wtstep] in *. destruct CO as [CO _]. pose proof CO as Hc. cbn [wpstep] in *. rewrite Hk in *.
          pose proof (wtok_wpok t s0 p K) as Kp. destruct (wk_ring _ _ Kp _ _ Hk) as (Fs & _).
          pose proof (wring_call_spec t Ht (wp_g (wt_p p)) k _ o Hg s (g_s (wp_g (wt_p p))) m c eq_refl Fs H Hc) as A. unfold agrees, agr in A.
          destruct (step_exact t HG (abs s m) T R c I Hc EX) as [[[Q|[C O]] Er]|(NQ & r' & y & R' & Er & I' & Qs & El)].
          -- rewrite (ring_panics_any t HB win (wpeek t) (wpoke t) s (g_s (wp_g (wt_p p))) m T R c I Hc Q) in *. cbn [fst snd] in *. subst x'. cbn [wring_answer app].
             apply qxa_panic; [exact Q|].
             refine (IH _ _ _ _ s o m T R K1 F E _ Hg H I EX).
             cbn. apply put_same.
          -- rewrite Er in A. destruct A as (s' & w' & m' & Es & _). rewrite Es in *. cbn [fst snd] in *. subst x'. cbn [wring_answer app].
             apply qxa_over; assumption.
          -- rewrite Er in A. destruct A as (s' & w' & Es & Eabs & Fs' & Rg & O). rewrite Es in *. cbn [fst snd] in *. subst x'. cbn [wring_answer app].
             apply (qxa_ok _ _ _ _ _ (absq r' (qx_count T (absq (abs s m) T R) c) R')); [exact NQ|exact Qs|]. pose proof Fs' as (E1 & E2 & _).
             assert (Ea : h_alloc (HRing s') = h_alloc (HRing s)) by (cbn; rewrite E1, E2; reflexivity).
             rewrite Eabs in I' |- *. refine (IH _ _ _ _ s' o (r_mem r') _ R' K1 F E _ _ _ I' _).
             ++ cbn. apply put_same.
             ++ rewrite Ea. exact Hg.
             ++ rewrite Ea. exact Rg.
             ++ rewrite E2. exact EX.
        * destruct (Z.eqb_spec k2 k) as [->|N]; [|apply Other; auto; [intros c' [= <-]; left; cbn; congruence|discriminate]].
          assert (X : wring_answer x' = []) by (cbn [wpstep] in Ex'; rewrite Hk in Ex'; subst x'; reflexivity). rewrite X. cbn [app].
          apply Other; auto; [intros c' [= <-]; right; eauto|discriminate].
        * destruct CO as [_ CO]. discriminate CO.
      + cbn [wecalls weresults] in *. apply Other; auto; discriminate.
      + cbn [wecalls weresults] in *. apply Other; auto; discriminate.
      + cbn [wecalls weresults] in *. apply Other; auto; discriminate.
      + cbn [wecalls weresults] in *. apply Other; auto; discriminate.
      + cbn [wecalls weresults wcalls_on wanswers_on] in *. destruct (Z.eqb_spec j k) as [->|N]; [constructor|].
        apply Other; auto; [discriminate|]. intros i [= _ E']. exact (N E').
      + cbn [wecalls weresults] in *. apply Other; auto; discriminate.
  Qed.
  Lemma weinf_exact s0 h : forall p xs p2 k s o m T, wtok t s0 p -> Forall (wev_ok t) h -> wtrun t h p = (xs, p2) ->
    wp_ring (wt_p p) k = Some (HInf s) -> g_tab (wp_g (wt_p p)) k = Some (TRing (h_alloc (HInf s)) o) ->
    rst t (wp_g (wt_p p)) (h_alloc (HInf s)) o (g_s (wp_g (wt_p p))) m -> iinv t (iabs s m) T ->
    exact_positions t (ki_len s) -> Forall (irop_ok t (ki_len s)) (wicalls_on k (wecalls h)) ->
    lqx_answers (t_checks t) T (abst (iabs s m) T) (wicalls_on k (wecalls h)) (wanswers_on k (wecalls h) (weresults h xs)).
  Proof.
    induction h as [|e h IH]; intros p xs p2 k s o m T K F E Hk Hg H I EX Ho.
    - injection E as <- <-. constructor.
    - apply Forall_cons_iff in F as [CO F]. apply wtrun_cons in E as (x & xs' & -> & Ex & E). pose proof (event_ok t Ht s0 p e K CO) as K1.
      assert (Other : (forall c, e = WECall c -> wp_subject c <> Some k \/ (exists i, c = WCall k i)) -> (forall tid, e <> WEDrop tid k) ->
        Forall (irop_ok t (ki_len s)) (wicalls_on k (wecalls h)) -> lqx_answers (t_checks t) T (abst (iabs s m) T) (wicalls_on k (wecalls h)) (wanswers_on k (wecalls h) (weresults h xs'))).
      { intros N Nd Ho'. destruct (event_ring t Ht s0 p e k _ o m K CO Hk Hg H) as (Hk1 & Hg1 & H1).
        { intros c Ec. destruct (N c Ec) as [Nc|(i & Nc)]; [left; exact Nc|right; right]. exists i. split; [exact Nc|discriminate]. }
        { exact Nd. }
        exact (IH _ _ _ _ _ _ _ _ K1 F E Hk1 Hg1 H1 I EX Ho'). }
      destruct e as [c|tid mut o' path|tid mut o' fd|tid mut o'|tid inf hint|tid j|tid].
      + assert (Xc : exists x', x = WTCall x' /\ x' = fst (wpstep t c (wt_p p))).
        { rewrite Ex. cbn [wtstep]. destruct (wpstep t c (wt_p p)) as [y p']. cbn. eauto. }
        destruct Xc as (x' & -> & Ex'). clear Ex. cbn [wecalls weresults]. destruct c as [a|hint|hint|k2 c|k2 c|k2]; cbn [wicalls_on wanswers_on wecalls] in *.
        * apply Other; auto; [intros c [= <-]; left; discriminate|discriminate].
        * apply Other; auto; [intros c [= <-]; left; discriminate|discriminate].
        * apply Other; auto; [intros c [= <-]; left; discriminate|discriminate].
        * destruct (Z.eqb_spec k2 k) as [->|N]; [|apply Other; auto; [intros c' [= <-]; left; cbn; congruence|discriminate]].
          assert (X : wring_answer x' = []) by (cbn [wpstep] in Ex'; rewrite Hk in Ex'; subst x'; reflexivity). rewrite X. cbn [app].
          apply Other; auto; [intros c' [= <-]; right; eauto|discriminate].
        * destruct (Z.eqb_spec k2 k) as [->|N]; [|apply Other; auto; [intros c' [= <-]; left; cbn; congruence|discriminate]].
          apply Forall_cons_iff in Ho as [Hc Ho]. cbn [wtstep] in *. destruct CO as [CO _]. cbn [wpstep] in *. rewrite Hk in *.
          pose proof (wtok_wpok t s0 p K) as Kp. destruct (wk_ring _ _ Kp _ _ Hk) as (Fs & _).
          pose proof (winf_call_spec t Ht (wp_g (wt_p p)) k _ o Hg s (g_s (wp_g (wt_p p))) m c eq_refl Fs H CO) as A. unfold iagrees, agr in A.
          destruct (istep_exact t HG (iabs s m) T c I Hc EX) as [[[Q|[C O]] Er]|(NQ & r' & y & Er & I' & Qs & El)].
          -- rewrite (inf_panics_any t HB win (wpeek t) (wpoke t) s (g_s (wp_g (wt_p p))) m T c I CO Q) in *. cbn [fst snd] in *. subst x'. cbn [wring_answer app].
             apply lxa_panic; [exact Q|].
             refine (IH _ _ _ _ s o m T K1 F E _ Hg H I EX Ho).
             cbn. apply put_same.
          -- rewrite Er in A. destruct A as (s' & w' & m' & Es & _). rewrite Es in *. cbn [fst snd] in *. subst x'. cbn [wring_answer app].
             apply lxa_over; assumption.
          -- rewrite Er in A. destruct A as (s' & w' & Es & Eabs & Fs' & Rg & O). rewrite Es in *. cbn [fst snd] in *. subst x'. cbn [wring_answer app].
             apply (lxa_ok _ _ _ _ _ (abst r' (T + lq_enters (abst (iabs s m) T) c))); [exact NQ|exact Qs|]. pose proof Fs' as (E1 & E2 & _).
             assert (Ea : h_alloc (HInf s') = h_alloc (HInf s)) by (cbn; rewrite E1, E2; reflexivity).
             rewrite Eabs in I' |- *. refine (IH _ _ _ _ s' o (i_mem r') _ K1 F E _ _ _ I' _ _).
             ++ cbn. apply put_same.
             ++ rewrite Ea. exact Hg.
             ++ rewrite Ea. exact Rg.
             ++ rewrite E2. exact EX.
             ++ rewrite E2. exact Ho.
        * destruct CO as [_ CO]. discriminate CO.
      + cbn [wecalls weresults] in *. apply Other; auto; discriminate.
      + cbn [wecalls weresults] in *. apply Other; auto; discriminate.
      + cbn [wecalls weresults] in *. apply Other; auto; discriminate.
      + cbn [wecalls weresults] in *. apply Other; auto; discriminate.
      + cbn [wecalls weresults wicalls_on wanswers_on] in *. destruct (Z.eqb_spec j k) as [->|N]; [constructor|].
        apply Other; auto; [discriminate|]. intros i [= _ E']. exact (N E').
      + cbn [wecalls weresults] in *. apply Other; auto; discriminate.
  Qed.
  Theorem wring_thread_exact s0 s tid hint h k s3 h' xs s4 : wtok t s0 s -> is_usize t hint -> wt_pool s tid = None ->
    Forall (wev_ok t) h -> Forall (fun e => wstarts e <> Some tid) h ->
    wtstep t (WEGo tid) (snd (wtrun t h (snd (wtstep t (WERing tid false hint) s)))) = (WTRing (Ret k), s3) ->
    Forall (wev_ok t) h' -> wtrun t h' s3 = (xs, s4) ->
    exists cap, is_ceil (t_alloc t) hint cap /\
      (exact_positions t cap ->
       qx_answers (t_checks t) 0 {| q_data := []; q_free := zeros cap |} (wcalls_on k (wecalls h')) (wanswers_on k (wecalls h') (weresults h' xs))).
  Proof.
    intros K Hh N0 Fo F E Fo' Er. destruct (ring_made t Ht s0 s tid false hint h k s3 K Hh N0 Fo F E) as (K3 & _ & cap & pg & o & IC & L1 & L2 & Hk & Hg & H).
    exists cap. split; [exact IC|]. intros EX. cbn [wnew_held] in *. pose proof (make_inv t HB cap (fun _ => 0) L1 ltac:(lia)) as I.
    replace {| q_data := []; q_free := zeros cap |} with (absq (abs (kring_new pg cap) (fun _ => 0)) 0 0).
    - exact (wering_exact s0 h' s3 xs s4 k (kring_new pg cap) o _ 0 0 K3 Fo' Er Hk Hg H I EX).
    - unfold absq. cbn [abs kring_new r_mem r_len k_len]. rewrite !Z.sub_0_r. rewrite view_zeros by exact L1. reflexivity.
  Qed.
  Theorem winf_thread_exact s0 s tid hint h k s3 h' xs s4 : wtok t s0 s -> is_usize t hint -> wt_pool s tid = None ->
    Forall (wev_ok t) h -> Forall (fun e => wstarts e <> Some tid) h ->
    wtstep t (WEGo tid) (snd (wtrun t h (snd (wtstep t (WERing tid true hint) s)))) = (WTRing (Ret k), s3) ->
    Forall (wev_ok t) h' -> wtrun t h' s3 = (xs, s4) ->
    exists cap, is_ceil (t_alloc t) hint cap /\
      (exact_positions t cap -> Forall (irop_ok t cap) (wicalls_on k (wecalls h')) ->
       lqx_answers (t_checks t) 0 {| lq_tape := zeros cap; lq_len := 0 |} (wicalls_on k (wecalls h')) (wanswers_on k (wecalls h') (weresults h' xs))).
  Proof.
    intros K Hh N0 Fo F E Fo' Er. destruct (ring_made t Ht s0 s tid true hint h k s3 K Hh N0 Fo F E) as (K3 & _ & cap & pg & o & IC & L1 & L2 & Hk & Hg & H).
    exists cap. split; [exact IC|]. intros EX Ho. cbn [wnew_held] in *. pose proof (imake_inv t HB cap (fun _ => 0) L1 L2) as I.
    replace {| lq_tape := zeros cap; lq_len := 0 |} with (abst (iabs (kiring_new pg cap) (fun _ => 0)) 0).
    - exact (weinf_exact s0 h' s3 xs s4 k (kiring_new pg cap) o _ 0 K3 Fo' Er Hk Hg H I EX Ho).
    - unfold abst. cbn [iabs kiring_new i_mem i_len i_rlen ki_len ki_rlen]. rewrite view_zeros by exact L1. reflexivity.
  Qed.

  (** ** The converse *)
  Lemma wecalls_calls cs : wecalls (map WECall cs) = cs.
  Proof. induction cs as [|c cs IH]; [reflexivity|]. cbn. rewrite IH. reflexivity. Qed.
  Lemma wcalls_run cs : forall s xs p2, wprun t cs (wt_p s) = (xs, p2) ->
    exists ys s2, wtrun t (map WECall cs) s = (ys, s2) /\ weresults (map WECall cs) ys = xs.
  Proof.
    induction cs as [|c cs IH]; intros s xs p2 E.
    - injection E as <- <-. exists [], s. split; reflexivity.
    - cbn [wprun] in E. destruct (wpstep t c (wt_p s)) as [x p1] eqn:E1. destruct (wprun t cs p1) as [ys p3] eqn:E2. injection E as <- <-.
      assert (S1 : wtstep t (WECall c) s = (WTCall x, {| wt_p := p1; wt_pool := wt_pool s |})) by (cbn [wtstep]; rewrite E1; reflexivity).
      destruct (IH {| wt_p := p1; wt_pool := wt_pool s |} ys p3 E2) as (zs & s2 & H & Er).
      exists (WTCall x :: zs), s2. cbn [map]. split; [cbn [wtrun]; rewrite S1, H; reflexivity|]. cbn [weresults]. rewrite Er. reflexivity.
  Qed.
  Theorem wring_thread_iff s0 s tid hint h k s3 : wtok t s0 s -> is_usize t hint -> wt_pool s tid = None ->
    Forall (wev_ok t) h -> Forall (fun e => wstarts e <> Some tid) h ->
    wtstep t (WEGo tid) (snd (wtrun t h (snd (wtstep t (WERing tid false hint) s)))) = (WTRing (Ret k), s3) ->
    exists cap, is_ceil (t_alloc t) hint cap /\
      (exact_positions t cap <-> forall h' xs s4, Forall (wev_ok t) h' -> wtrun t h' s3 = (xs, s4) ->
       qx_answers (t_checks t) 0 {| q_data := []; q_free := zeros cap |} (wcalls_on k (wecalls h')) (wanswers_on k (wecalls h') (weresults h' xs))).
  Proof.
    intros K Hh N0 Fo F E. destruct (ring_made t Ht s0 s tid false hint h k s3 K Hh N0 Fo F E) as (K3 & _ & cap & pg & o & IC & L1 & L2 & Hk & Hg & H).
    exists cap. split; [exact IC|]. cbn [wnew_held] in *. split.
    - intros EX h' xs s4 F' Er. destruct (wring_thread_exact s0 s tid hint h k s3 h' xs s4 K Hh N0 Fo F E F' Er) as (cap' & IC' & A).
      assert (cap' = cap) as -> by exact (ceil_unique _ _ _ _ IC' IC). exact (A EX).
    - intros A. destruct (exact_dec t cap) as [D|D]; [exact D|]. exfalso. destruct (ring_jump t HG cap L1 L2 D) as (os & Ho & N). apply N.
      destruct (wprun t (map (WCall k) os) (wt_p s3)) as [xs p4] eqn:Er.
      destruct (wcalls_run _ _ _ _ Er) as (ys & s4 & Er' & Ey).
      pose proof (fun X => A _ _ _ X Er') as A'. rewrite wecalls_calls, Ey, wcalls_on_map in A'. replace (view (fun _ => 0) 0 cap) with (zeros cap).
      + refine (wring_replies_of t Ht os (wt_p s3) xs p4 k (kring_new pg cap) o (fun _ => 0) _ _ (wtok_wpok t s0 s3 K3) Ho Er Hk Hg H (A' _)).
        apply Forall_map, Forall_map. refine (Forall_impl _ _ Ho). intros a Ha. split; [exact Ha|reflexivity].
      + symmetry. apply view_zeros'.
  Qed.
  Theorem winf_thread_iff s0 s tid hint h k s3 : wtok t s0 s -> is_usize t hint -> wt_pool s tid = None ->
    Forall (wev_ok t) h -> Forall (fun e => wstarts e <> Some tid) h ->
    wtstep t (WEGo tid) (snd (wtrun t h (snd (wtstep t (WERing tid true hint) s)))) = (WTRing (Ret k), s3) ->
    exists cap, is_ceil (t_alloc t) hint cap /\
      (exact_positions t cap <-> forall h' xs s4, Forall (wev_ok t) h' -> Forall (irop_ok t cap) (wicalls_on k (wecalls h')) -> wtrun t h' s3 = (xs, s4) ->
       lqx_answers (t_checks t) 0 {| lq_tape := zeros cap; lq_len := 0 |} (wicalls_on k (wecalls h')) (wanswers_on k (wecalls h') (weresults h' xs))).
  Proof.
    intros K Hh N0 Fo F E. destruct (ring_made t Ht s0 s tid true hint h k s3 K Hh N0 Fo F E) as (K3 & _ & cap & pg & o & IC & L1 & L2 & Hk & Hg & H).
    exists cap. split; [exact IC|]. cbn [wnew_held] in *. split.
    - intros EX h' xs s4 F' Fi Er. destruct (winf_thread_exact s0 s tid hint h k s3 h' xs s4 K Hh N0 Fo F E F' Er) as (cap' & IC' & A).
      assert (cap' = cap) as -> by exact (ceil_unique _ _ _ _ IC' IC). exact (A EX Fi).
    - intros A. destruct (exact_dec t cap) as [D|D]; [exact D|]. exfalso. destruct (iring_jump t HG cap L1 L2 D) as (os & Ho & N). apply N.
      assert (Ho' : Forall (irop_args t) os) by (refine (Forall_impl _ _ Ho); intros a; apply irop_ok_args).
      destruct (wprun t (map (WICall k) os) (wt_p s3)) as [xs p4] eqn:Er.
      destruct (wcalls_run _ _ _ _ Er) as (ys & s4 & Er' & Ey).
      pose proof (fun X Y => A _ _ _ X Y Er') as A'. rewrite wecalls_calls, Ey, wicalls_on_map in A'. replace (view (fun _ => 0) 0 cap) with (zeros cap).
      + refine (winf_replies_of t Ht os (wt_p s3) xs p4 k (kiring_new pg cap) o (fun _ => 0) _ _ (wtok_wpok t s0 s3 K3) Ho' Er Hk Hg H (A' _ Ho)).
        apply Forall_map, Forall_map. refine (Forall_impl _ _ Ho'). intros a Ha. split; [exact Ha|reflexivity].
      + symmetry. apply view_zeros'.
  Qed.
End Exact.
