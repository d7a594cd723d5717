(** The same on Windows. *)
From Coq Require Import Lia.
From Verif Require Import Base Spec ErrorModel RingSpec RingModel SizeModel SizeProofs SeqProofs OsModel MapModel MapSpec OsProofs MapProofs MapCreate MapOps
  RingMapModel RingMapSpec MirrorProofs RingMapClaims RingProofs IRingProofs RingWeak MemRingModel MemRingProofs
  ApiModel ApiSpec ApiProofs ProcModel ProcSpec ProcFrame ProcProofs ProcClaims
  WinModel WinSpec WinProofs WinClaims WinCalls WinMapModel WinMapSpec WinSpace WinKeep WinMapProofs WinAlloc WinThings WinHist WinLeak WinMapClaims
  WinProcModel WinProcSpec WinProcProofs WinProcClaims RingTheorems RingClaims RingExactSpec RingExact RingExactClaims ProcExactSpec ProcExact.

Lemma wcalls_on_map k os : wcalls_on k (map (WCall k) os) = os.
Proof. induction os as [|a os IH]; [reflexivity|]. cbn [map wcalls_on]. rewrite Z.eqb_refl, IH. reflexivity. Qed.
Lemma wicalls_on_map k os : wicalls_on k (map (WICall k) os) = os.
Proof. induction os as [|a os IH]; [reflexivity|]. cbn [map wicalls_on]. rewrite Z.eqb_refl, IH. reflexivity. Qed.

Section Exact.
  Variable t : target.
  Hypothesis Ht : good_target t.
  Let HG : good_target t := Ht.
  Let HB : 32 <= t_bits t <= 64.
  Proof. destruct HG as [[E|E] _]; lia. Qed.

  Lemma wring_exact h : forall p xs p2 k s o m T R, wpok t p -> Forall (wpcall_ok t) h -> wprun t h p = (xs, p2) ->
    wp_ring p k = Some (HRing s) -> g_tab (wp_g p) k = Some (TRing (h_alloc (HRing s)) o) ->
    rst t (wp_g p) (h_alloc (HRing s)) o (g_s (wp_g p)) m -> inv t (abs s m) T R ->
    exact_positions t (k_len s) ->
    qx_answers (t_checks t) T (absq (abs s m) T R) (wcalls_on k h) (wanswers_on k h xs).
  Proof.
    induction h as [|c h IH]; intros p xs p2 k s o m T R K F E Hk Hg H I EX.
    - injection E as <- <-. constructor.
    - apply Forall_cons_iff in F as [CO F]. apply wprun_cons in E as (x & xs' & -> & Ex & E).
      assert (Other : (wp_subject c <> Some k \/ exists i, c = WICall k i) ->
        exact_positions t (k_len s) -> qx_answers (t_checks t) T (absq (abs s m) T R) (wcalls_on k h) (wanswers_on k h xs')).
      { intros N _. destruct (wother_step t Ht c p k _ o m K CO Hk Hg H) as (K1 & Hk1 & Hg1 & H1).
        { destruct N as [N|(i & N)]; [left; exact N|right; left]. exists i. split; [exact N|discriminate]. }
        exact (IH _ _ _ _ _ _ _ _ _ K1 F E Hk1 Hg1 H1 I EX). }
      destruct c as [a|hint|hint|k2 c|k2 c|k2]; cbn [wcalls_on wanswers_on] in *.
      + apply Other; auto; left; discriminate.
      + apply Other; auto; left; discriminate.
      + apply Other; auto; left; discriminate.
      + destruct (Z.eqb_spec k2 k) as [->|N]; [|apply Other; auto; left; cbn; congruence].
        destruct (wpstep_traced t Ht (WCall k c) p K CO) as (hs & Tr). pose proof (tr_pok _ _ _ _ _ Tr) as K1. clear Tr hs.
        pose proof CO as Hc. cbn [wpstep] in *. rewrite Hk in *.
        destruct (wk_ring _ _ K _ _ Hk) as (Fs & _).
        pose proof (wring_call_spec t Ht (wp_g p) k _ o Hg s (g_s (wp_g p)) m c eq_refl Fs H Hc) as A. unfold agrees, agr in A.
        destruct (step_exact t HG (abs s m) T R c I Hc EX) as [[[Q|[C O]] Er]|(NQ & r' & y & R' & Er & I' & Qs & El)].
        * rewrite (ring_panics_any t HB win (wpeek t) (wpoke t) s (g_s (wp_g p)) m T R c I Hc Q) in *. cbn [fst snd] in *. subst x. cbn [wring_answer app].
          apply qxa_panic; [exact Q|].
          refine (IH _ _ _ _ s o m T R K1 F E _ Hg H I EX).
          -- cbn. apply put_same.
        * rewrite Er in A. destruct A as (s' & w' & m' & Es & _). rewrite Es in *. cbn [fst snd] in *. subst x. cbn [wring_answer app].
          apply qxa_over; assumption.
        * rewrite Er in A. destruct A as (s' & w' & Es & Eabs & Fs' & Rg & O). rewrite Es in *. cbn [fst snd] in *. subst x. cbn [wring_answer app].
          apply (qxa_ok _ _ _ _ _ (absq r' (qx_count T (absq (abs s m) T R) c) R')); [exact NQ|exact Qs|]. pose proof Fs' as (E1 & E2 & _).
          assert (Ea : h_alloc (HRing s') = h_alloc (HRing s)) by (cbn; rewrite E1, E2; reflexivity).
          rewrite Eabs in I' |- *. refine (IH _ _ _ _ s' o (r_mem r') _ R' K1 F E _ _ _ I' _).
          -- cbn. apply put_same.
          -- rewrite Ea. exact Hg.
          -- rewrite Ea. exact Rg.
          -- rewrite E2. exact EX.
      + destruct (Z.eqb_spec k2 k) as [->|N]; [|apply Other; auto; left; cbn; congruence].
        assert (X : wring_answer x = []) by (cbn [wpstep] in Ex; rewrite Hk in Ex; subst x; reflexivity). rewrite X. cbn [app].
        apply Other; eauto.
      + destruct (Z.eqb_spec k2 k) as [->|N]; [constructor|apply Other; auto; left; cbn; congruence].
  Qed.
  Lemma winf_exact h : forall p xs p2 k s o m T, wpok t p -> Forall (wpcall_ok t) h -> wprun t h p = (xs, p2) ->
    wp_ring p k = Some (HInf s) -> g_tab (wp_g p) k = Some (TRing (h_alloc (HInf s)) o) ->
    rst t (wp_g p) (h_alloc (HInf s)) o (g_s (wp_g p)) m -> iinv t (iabs s m) T ->
    exact_positions t (ki_len s) -> Forall (irop_ok t (ki_len s)) (wicalls_on k h) ->
    lqx_answers (t_checks t) T (abst (iabs s m) T) (wicalls_on k h) (wanswers_on k h xs).
  Proof.
    induction h as [|c h IH]; intros p xs p2 k s o m T K F E Hk Hg H I EX Ho.
    - injection E as <- <-. constructor.
    - apply Forall_cons_iff in F as [CO F]. apply wprun_cons in E as (x & xs' & -> & Ex & E).
      assert (Other : (wp_subject c <> Some k \/ exists i, c = WCall k i) ->
        exact_positions t (ki_len s) -> Forall (irop_ok t (ki_len s)) (wicalls_on k h) -> lqx_answers (t_checks t) T (abst (iabs s m) T) (wicalls_on k h) (wanswers_on k h xs')).
      { intros N _ Ho'. destruct (wother_step t Ht c p k _ o m K CO Hk Hg H) as (K1 & Hk1 & Hg1 & H1).
        { destruct N as [N|(i & N)]; [left; exact N|right; right]. exists i. split; [exact N|discriminate]. }
        exact (IH _ _ _ _ _ _ _ _ K1 F E Hk1 Hg1 H1 I EX Ho'). }
      destruct c as [a|hint|hint|k2 c|k2 c|k2]; cbn [wicalls_on wanswers_on] in *.
      + apply Other; auto; left; discriminate.
      + apply Other; auto; left; discriminate.
      + apply Other; auto; left; discriminate.
      + destruct (Z.eqb_spec k2 k) as [->|N]; [|apply Other; auto; left; cbn; congruence].
        assert (X : wring_answer x = []) by (cbn [wpstep] in Ex; rewrite Hk in Ex; subst x; reflexivity). rewrite X. cbn [app].
        apply Other; eauto.
      + destruct (Z.eqb_spec k2 k) as [->|N]; [|apply Other; auto; left; cbn; congruence].
        destruct (wpstep_traced t Ht (WICall k c) p K CO) as (hs & Tr). pose proof (tr_pok _ _ _ _ _ Tr) as K1. clear Tr hs.
        apply Forall_cons_iff in Ho as [Hc Ho]. cbn [wpstep] in *. rewrite Hk in *.
        destruct (wk_ring _ _ K _ _ Hk) as (Fs & _).
        pose proof (winf_call_spec t Ht (wp_g p) k _ o Hg s (g_s (wp_g p)) m c eq_refl Fs H CO) as A. unfold iagrees, agr in A.
        destruct (istep_exact t HG (iabs s m) T c I Hc EX) as [[[Q|[C O]] Er]|(NQ & r' & y & Er & I' & Qs & El)].
        * rewrite (inf_panics_any t HB win (wpeek t) (wpoke t) s (g_s (wp_g p)) m T c I CO Q) in *. cbn [fst snd] in *. subst x. cbn [wring_answer app].
          apply lxa_panic; [exact Q|].
          refine (IH _ _ _ _ s o m T K1 F E _ Hg H I EX Ho).
          -- cbn. apply put_same.
        * rewrite Er in A. destruct A as (s' & w' & m' & Es & _). rewrite Es in *. cbn [fst snd] in *. subst x. cbn [wring_answer app].
          apply lxa_over; assumption.
        * rewrite Er in A. destruct A as (s' & w' & Es & Eabs & Fs' & Rg & O). rewrite Es in *. cbn [fst snd] in *. subst x. cbn [wring_answer app].
          apply (lxa_ok _ _ _ _ _ (abst r' (T + lq_enters (abst (iabs s m) T) c))); [exact NQ|exact Qs|]. pose proof Fs' as (E1 & E2 & _).
          assert (Ea : h_alloc (HInf s') = h_alloc (HInf s)) by (cbn; rewrite E1, E2; reflexivity).
          rewrite Eabs in I' |- *. refine (IH _ _ _ _ s' o (i_mem r') _ K1 F E _ _ _ I' _ _).
          -- cbn. apply put_same.
          -- rewrite Ea. exact Hg.
          -- rewrite Ea. exact Rg.
          -- rewrite E2. exact EX.
          -- rewrite E2. exact Ho.
      + destruct (Z.eqb_spec k2 k) as [->|N]; [constructor|apply Other; auto; left; cbn; congruence].
  Qed.
  Theorem wring_end_exact p hint k p1 h xs p2 : wpreached t p -> is_usize t hint ->
    wpstep t (WRing hint) p = (WNew (Ret k), p1) -> Forall (wpcall_ok t) h -> wprun t h p1 = (xs, p2) ->
    exists cap, is_ceil (t_alloc t) hint cap /\
      (exact_positions t cap ->
       qx_answers (t_checks t) 0 {| q_data := []; q_free := zeros cap |} (wcalls_on k h) (wanswers_on k h xs)).
  Proof.
    intros Rp Hh E F Er. pose proof (wpreached_ok t Ht p Rp) as K.
    destruct (wnew_inv t Ht (WRing hint) (fun ptr len => HRing (kring_new ptr len)) _ _ _ _ K Hh (fun _ _ => eq_refl) Hh eq_refl E)
      as (pg & cap & o & IC & L1 & L2 & K1 & Hk & Hg & H).
    exists cap. split; [exact IC|]. intros EX.
    pose proof (make_inv t HB cap (fun _ => 0) L1 ltac:(lia)) as I.
    replace {| q_data := []; q_free := zeros cap |} with (absq (abs (kring_new pg cap) (fun _ => 0)) 0 0).
    - exact (wring_exact h p1 xs p2 k (kring_new pg cap) o _ 0 0 K1 F Er Hk Hg H I EX).
    - unfold absq. cbn [abs kring_new r_mem r_len k_len]. rewrite !Z.sub_0_r. rewrite view_zeros by exact L1. reflexivity.
  Qed.
  Theorem winf_end_exact p hint k p1 h xs p2 : wpreached t p -> is_usize t hint ->
    wpstep t (WInf hint) p = (WNew (Ret k), p1) -> Forall (wpcall_ok t) h -> wprun t h p1 = (xs, p2) ->
    exists cap, is_ceil (t_alloc t) hint cap /\
      (exact_positions t cap -> Forall (irop_ok t cap) (wicalls_on k h) ->
       lqx_answers (t_checks t) 0 {| lq_tape := zeros cap; lq_len := 0 |} (wicalls_on k h) (wanswers_on k h xs)).
  Proof.
    intros Rp Hh E F Er. pose proof (wpreached_ok t Ht p Rp) as K.
    destruct (wnew_inv t Ht (WInf hint) (fun ptr len => HInf (kiring_new ptr len)) _ _ _ _ K Hh (fun _ _ => eq_refl) Hh eq_refl E)
      as (pg & cap & o & IC & L1 & L2 & K1 & Hk & Hg & H).
    exists cap. split; [exact IC|]. intros EX Ho.
    pose proof (imake_inv t HB cap (fun _ => 0) L1 L2) as I.
    replace {| lq_tape := zeros cap; lq_len := 0 |} with (abst (iabs (kiring_new pg cap) (fun _ => 0)) 0).
    - exact (winf_exact h p1 xs p2 k (kiring_new pg cap) o _ 0 K1 F Er Hk Hg H I EX Ho).
    - unfold abst. cbn [iabs kiring_new i_mem i_len i_rlen ki_len ki_rlen]. rewrite view_zeros by exact L1. reflexivity.
  Qed.

  (** ** The converse *)
  Lemma wring_replies_of os : forall p xs p2 k s o m c q, wpok t p -> Forall (rop_ok t) os -> wprun t (map (WCall k) os) p = (xs, p2) ->
    wp_ring p k = Some (HRing s) -> g_tab (wp_g p) k = Some (TRing (h_alloc (HRing s)) o) ->
    rst t (wp_g p) (h_alloc (HRing s)) o (g_s (wp_g p)) m ->
    qx_answers (t_checks t) c q os (wanswers_on k (map (WCall k) os) xs) -> ring_replies t (t_checks t) c q (abs s m) os.
  Proof.
    induction os as [|a os IH]; intros p xs p2 k s o m c q K F E Hk Hg H Qa.
    - exists (Some (q, [])). split; [constructor|]. eexists. reflexivity.
    - cbn [map] in E. apply Forall_cons_iff in F as [Hc F]. apply wprun_cons in E as (x & xs' & -> & Ex & E).
      destruct (wpstep_traced t Ht (WCall k a) p K Hc) as (hs & Tr). pose proof (tr_pok _ _ _ _ _ Tr) as K1. clear Tr hs. cbn [map wanswers_on] in Qa. rewrite Z.eqb_refl in Qa.
      cbn [wpstep] in *. rewrite Hk in *. destruct (wk_ring _ _ K _ _ Hk) as (Fs & _).
      pose proof (wring_call_spec t Ht (wp_g p) k _ o Hg s (g_s (wp_g p)) m a eq_refl Fs H Hc) as A. unfold agrees, agr in A.
      unfold ring_replies. cbn [ring_run].
      destruct (ring_step t (abs s m) a) as [[r' y]|e| | |] eqn:Er; try contradiction A.
      + destruct A as (s' & w' & Es & Eabs & Fs' & Rg & O). rewrite Es in *. cbn [fst snd] in *. subst x. cbn [wring_answer app] in Qa.
        inversion Qa as [|c0 q0 o0 os0 q' x0 xs0 NQ Qs Qa'| | ]; subst c0 q0 o0 os0 x0 xs0. pose proof Fs' as (E1 & E2 & _).
        assert (R : ring_replies t (t_checks t) (qx_count c q a) q' (abs s' (r_mem r')) os).
        { assert (Ea : h_alloc (HRing s') = h_alloc (HRing s)) by (cbn; rewrite E1, E2; reflexivity).
          refine (IH _ _ _ _ s' o (r_mem r') _ _ K1 F E _ _ _ Qa').
          - cbn. apply put_same.
          - rewrite Ea. exact Hg.
          - rewrite Ea. exact Rg. }
        cbn [obind fst snd]. rewrite <- Eabs in R. destruct R as ([[q2 ys]|] & Q2 & M).
        * exists (Some (q2, y :: ys)). split; [eapply qx_ok; eassumption|]. destruct M as (r2 & ->). cbn [obind fst snd]. eauto.
        * exists None. split; [eapply qx_later; eassumption|]. rewrite M. reflexivity.
      + destruct A as (s' & w' & m' & Es & _). rewrite Es in *. cbn [fst snd] in *. subst x. cbn [wring_answer app] in Qa.
        exists None. split; [|reflexivity]. apply qx_panic. inversion Qa; subst; [left|right]; auto.
  Qed.
  Lemma winf_replies_of os : forall p xs p2 k s o m c q, wpok t p -> Forall (irop_args t) os -> wprun t (map (WICall k) os) p = (xs, p2) ->
    wp_ring p k = Some (HInf s) -> g_tab (wp_g p) k = Some (TRing (h_alloc (HInf s)) o) ->
    rst t (wp_g p) (h_alloc (HInf s)) o (g_s (wp_g p)) m ->
    lqx_answers (t_checks t) c q os (wanswers_on k (map (WICall k) os) xs) -> iring_replies t (t_checks t) c q (iabs s m) os.
  Proof.
    induction os as [|a os IH]; intros p xs p2 k s o m c q K F E Hk Hg H Qa.
    - exists (Some (q, [])). split; [constructor|]. eexists. reflexivity.
    - cbn [map] in E. apply Forall_cons_iff in F as [Hc F]. apply wprun_cons in E as (x & xs' & -> & Ex & E).
      destruct (wpstep_traced t Ht (WICall k a) p K Hc) as (hs & Tr). pose proof (tr_pok _ _ _ _ _ Tr) as K1. clear Tr hs. cbn [map wanswers_on] in Qa. rewrite Z.eqb_refl in Qa.
      cbn [wpstep] in *. rewrite Hk in *. destruct (wk_ring _ _ K _ _ Hk) as (Fs & _).
      pose proof (winf_call_spec t Ht (wp_g p) k _ o Hg s (g_s (wp_g p)) m a eq_refl Fs H Hc) as A. unfold iagrees, agr in A.
      unfold iring_replies. cbn [iring_run].
      destruct (iring_step t (iabs s m) a) as [[r' y]|e| | |] eqn:Er; try contradiction A.
      + destruct A as (s' & w' & Es & Eabs & Fs' & Rg & O). rewrite Es in *. cbn [fst snd] in *. subst x. cbn [wring_answer app] in Qa.
        inversion Qa as [|c0 q0 o0 os0 q' x0 xs0 NQ Qs Qa'| | ]; subst c0 q0 o0 os0 x0 xs0. pose proof Fs' as (E1 & E2 & _).
        assert (R : iring_replies t (t_checks t) (c + lq_enters q a) q' (iabs s' (i_mem r')) os).
        { assert (Ea : h_alloc (HInf s') = h_alloc (HInf s)) by (cbn; rewrite E1, E2; reflexivity).
          refine (IH _ _ _ _ s' o (i_mem r') _ _ K1 F E _ _ _ Qa').
          - cbn. apply put_same.
          - rewrite Ea. exact Hg.
          - rewrite Ea. exact Rg. }
        cbn [obind fst snd]. rewrite <- Eabs in R. destruct R as ([[q2 ys]|] & Q2 & M).
        * exists (Some (q2, y :: ys)). split; [eapply lqx_ok; eassumption|]. destruct M as (r2 & ->). cbn [obind fst snd]. eauto.
        * exists None. split; [eapply lqx_later; eassumption|]. rewrite M. reflexivity.
      + destruct A as (s' & w' & m' & Es & _). rewrite Es in *. cbn [fst snd] in *. subst x. cbn [wring_answer app] in Qa.
        exists None. split; [|reflexivity]. apply lqx_panic. inversion Qa; subst; [left|right]; auto.
  Qed.

  Theorem wring_end_iff p hint k p1 : wpreached t p -> is_usize t hint ->
    wpstep t (WRing hint) p = (WNew (Ret k), p1) ->
    exists cap, is_ceil (t_alloc t) hint cap /\
      (exact_positions t cap <-> forall h xs p2, Forall (wpcall_ok t) h -> wprun t h p1 = (xs, p2) ->
       qx_answers (t_checks t) 0 {| q_data := []; q_free := zeros cap |} (wcalls_on k h) (wanswers_on k h xs)).
  Proof.
    intros Rp Hh E. pose proof (wpreached_ok t Ht p Rp) as K.
    destruct (wnew_inv t Ht (WRing hint) (fun ptr len => HRing (kring_new ptr len)) _ _ _ _ K Hh (fun _ _ => eq_refl) Hh eq_refl E)
      as (pg & cap & o & IC & L1 & L2 & K1 & Hk & Hg & H).
    exists cap. split; [exact IC|]. split.
    - intros EX h xs p2 F Er. destruct (wring_end_exact p hint k p1 h xs p2 Rp Hh E F Er) as (cap' & IC' & A).
      assert (cap' = cap) as -> by exact (ceil_unique _ _ _ _ IC' IC). exact (A EX).
    - intros A. destruct (exact_dec t cap) as [D|D]; [exact D|]. exfalso. destruct (ring_jump t HG cap L1 L2 D) as (os & Ho & N). apply N.
      destruct (wprun t (map (WCall k) os) p1) as [xs p2] eqn:Er. specialize (A (map (WCall k) os) xs p2).
      rewrite wcalls_on_map in A. replace (view (fun _ => 0) 0 cap) with (zeros cap).
      + refine (wring_replies_of os p1 xs p2 k (kring_new pg cap) o (fun _ => 0) _ _ K1 Ho Er Hk Hg H (A _ Er)).
        apply Forall_map. exact Ho.
      + symmetry. apply view_zeros'.
  Qed.
  Theorem winf_end_iff p hint k p1 : wpreached t p -> is_usize t hint ->
    wpstep t (WInf hint) p = (WNew (Ret k), p1) ->
    exists cap, is_ceil (t_alloc t) hint cap /\
      (exact_positions t cap <-> forall h xs p2, Forall (wpcall_ok t) h -> Forall (irop_ok t cap) (wicalls_on k h) -> wprun t h p1 = (xs, p2) ->
       lqx_answers (t_checks t) 0 {| lq_tape := zeros cap; lq_len := 0 |} (wicalls_on k h) (wanswers_on k h xs)).
  Proof.
    intros Rp Hh E. pose proof (wpreached_ok t Ht p Rp) as K.
    destruct (wnew_inv t Ht (WInf hint) (fun ptr len => HInf (kiring_new ptr len)) _ _ _ _ K Hh (fun _ _ => eq_refl) Hh eq_refl E)
      as (pg & cap & o & IC & L1 & L2 & K1 & Hk & Hg & H).
    exists cap. split; [exact IC|]. split.
    - intros EX h xs p2 F Fi Er. destruct (winf_end_exact p hint k p1 h xs p2 Rp Hh E F Er) as (cap' & IC' & A).
      assert (cap' = cap) as -> by exact (ceil_unique _ _ _ _ IC' IC). exact (A EX Fi).
    - intros A. destruct (exact_dec t cap) as [D|D]; [exact D|]. exfalso. destruct (iring_jump t HG cap L1 L2 D) as (os & Ho & N). apply N.
      assert (Ho' : Forall (irop_args t) os) by (refine (Forall_impl _ _ Ho); intros a; apply irop_ok_args).
      destruct (wprun t (map (WICall k) os) p1) as [xs p2] eqn:Er. specialize (A (map (WICall k) os) xs p2).
      rewrite wicalls_on_map in A. replace (view (fun _ => 0) 0 cap) with (zeros cap).
      + refine (winf_replies_of os p1 xs p2 k (kiring_new pg cap) o (fun _ => 0) _ _ K1 Ho' Er Hk Hg H (A _ Ho Er)).
        apply Forall_map. exact Ho'.
      + symmetry. apply view_zeros'.
  Qed.
End Exact.
