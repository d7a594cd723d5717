(** Programs with rings over histories of any length: lemmas. *)
From Coq Require Import Lia.
From Verif Require Import Base Spec ErrorModel RingSpec RingModel SizeModel SizeProofs SeqProofs OsModel MapModel MapSpec OsProofs MapProofs MapCreate MapOps
  ApiModel ApiSpec ApiProofs RingMapModel RingMapSpec MirrorProofs RingMapClaims RingProofs IRingProofs RingWeak MemRingModel MemRingProofs
  ProcModel ProcSpec ProcFrame ProcProofs ProcClaims RingTheorems RingClaims RingExactSpec RingExact RingExactClaims ProcExactSpec.

Lemma ceil_unique u x r1 r2 : is_ceil u x r1 -> is_ceil u x r2 -> r1 = r2.
Proof. intros (D1 & L1 & M1) (D2 & L2 & M2). pose proof (M1 r2 D2 L2). pose proof (M2 r1 D1 L1). lia. Qed.
Lemma view_zeros' n : view (fun _ => 0) 0 n = zeros n.
Proof.
  unfold view, zeros. generalize 0%nat. induction (Z.to_nat n) as [|k IH]; intros i; [reflexivity|].
  cbn [seq map repeat]. f_equal. apply IH.
Qed.
Lemma calls_on_map k os : calls_on k (map (PCall k) os) = os.
Proof. induction os as [|a os IH]; [reflexivity|]. cbn [map calls_on]. rewrite Z.eqb_refl, IH. reflexivity. Qed.
Lemma icalls_on_map k os : icalls_on k (map (PICall k) os) = os.
Proof. induction os as [|a os IH]; [reflexivity|]. cbn [map icalls_on]. rewrite Z.eqb_refl, IH. reflexivity. Qed.
Lemma irop_ok_args t cap a : irop_ok t cap a -> irop_args t a.
Proof. destruct a; cbn; tauto. Qed.

Section Exact.
  Variable t : target.
  Variable plat : platform.
  Hypothesis Ht : posix_target t.
  Let HG : good_target t := proj1 Ht.
  Let HB : 32 <= t_bits t <= 64.
  Proof. destruct HG as [[E|E] _]; lia. Qed.

  Lemma ring_exact h : forall p xs p2 k s n o m T R, pok t p -> Forall (pcall_ok t) h -> prun t plat h p = (xs, p2) ->
    pc_ring p k = Some (HRing s) -> at_home t (pc_w p) (HRing s) n o m -> inv t (abs s m) T R ->
    exact_positions t (k_len s) ->
    qx_answers (t_checks t) T (absq (abs s m) T R) (calls_on k h) (answers_on k h xs).
  Proof.
    induction h as [|c h IH]; intros p xs p2 k s n o m T R K F E Hk H I EX.
    - injection E as <- <-. constructor.
    - apply Forall_cons_iff in F as [CO F]. apply prun_cons in E as (x & xs' & -> & Ex & E).
      pose proof (pstep_ok t plat Ht c p K CO) as K1.
      assert (Other : (ring_subject c <> Some k \/ exists i, c = PICall k i) -> ring_answer x = [] \/ ring_subject c <> Some k ->
        exact_positions t (k_len s) -> qx_answers (t_checks t) T (absq (abs s m) T R) (calls_on k h) (answers_on k h xs')).
      { intros N _ _. destruct (other_step t plat Ht c p k _ n o m K CO Hk H) as [Hk1 H1].
        { destruct N as [N|(i & N)]; [left; exact N|right; left]. exists i. split; [exact N|discriminate]. }
        exact (IH _ _ _ _ _ _ _ _ _ _ K1 F E Hk1 H1 I EX). }
      destruct c as [c|hint clock|hint clock|k2 c|k2 c|k2]; cbn [calls_on answers_on] in *.
      + apply Other; auto; [left|right]; discriminate.
      + apply Other; auto; [left|right]; discriminate.
      + apply Other; auto; [left|right]; discriminate.
      + destruct (Z.eqb_spec k2 k) as [->|N]; [|apply Other; auto; [left|right]; cbn; congruence].
        pose proof CO as Hc. cbn [pstep] in *. rewrite Hk in *.
        destruct (pk_ring _ _ K _ _ Hk) as (Fs & _).
        pose proof (ring_call_spec t Ht s (pc_w p) n o m c H Fs Hc) as A. unfold agrees, agr in A.
        destruct (step_exact t HG (abs s m) T R c I Hc EX) as [[[Q|[C O]] Er]|(NQ & r' & y & R' & Er & I' & Qs & El)].
        * rewrite (ring_panics t Ht s (pc_w p) m T R c I Hc Q) in *. cbn [fst snd] in *. subst x. cbn [ring_answer app].
          apply qxa_panic; [exact Q|].
          refine (IH _ _ _ _ s n o m T R K1 F E _ _ I EX).
          -- cbn. apply put_same.
          -- destruct p as [[w0 lv cnt] rg pc]. exact H.
        * rewrite Er in A. destruct A as (s' & w' & m' & Es & _). rewrite Es in *. cbn [fst snd] in *. subst x. cbn [ring_answer app].
          apply qxa_over; assumption.
        * rewrite Er in A. destruct A as (s' & w' & Es & Eabs & Fs' & Rg & O). rewrite Es in *. cbn [fst snd] in *. subst x. cbn [ring_answer app].
          apply (qxa_ok _ _ _ _ _ (absq r' (qx_count T (absq (abs s m) T R) c) R')); [exact NQ|exact Qs|]. pose proof Fs' as (E1 & E2 & _).
          rewrite Eabs in I' |- *. refine (IH _ _ _ _ s' n o (r_mem r') _ R' K1 F E _ _ I' _).
          -- cbn. apply put_same.
          -- destruct H as [L R0 [Pv1 Pv2 Pv3] Lo Hi]. cbn [h_alloc ra_ptr ra_len] in *.
             split; cbn [h_alloc ra_ptr ra_len]; rewrite ?E1, ?E2; try assumption.
             split; cbn; [rewrite (oi_next _ _ _ O)|rewrite (oi_fd _ _ _ O)|rewrite (oi_fs _ _ _ O)]; assumption.
          -- rewrite E2. exact EX.
      + destruct (Z.eqb_spec k2 k) as [->|N]; [|apply Other; auto; [left|right]; cbn; congruence].
        assert (X : ring_answer x = []) by (cbn [pstep] in Ex; rewrite Hk in Ex; subst x; reflexivity). rewrite X. cbn [app].
        apply Other; eauto.
      + destruct (Z.eqb_spec k2 k) as [->|N]; [constructor|apply Other; auto; [left|right]; cbn; congruence].
  Qed.
  Lemma inf_exact h : forall p xs p2 k s n o m T, pok t p -> Forall (pcall_ok t) h -> prun t plat h p = (xs, p2) ->
    pc_ring p k = Some (HInf s) -> at_home t (pc_w p) (HInf s) n o m -> iinv t (iabs s m) T ->
    exact_positions t (ki_len s) -> Forall (irop_ok t (ki_len s)) (icalls_on k h) ->
    lqx_answers (t_checks t) T (abst (iabs s m) T) (icalls_on k h) (answers_on k h xs).
  Proof.
    induction h as [|c h IH]; intros p xs p2 k s n o m T K F E Hk H I EX Ho.
    - injection E as <- <-. constructor.
    - apply Forall_cons_iff in F as [CO F]. apply prun_cons in E as (x & xs' & -> & Ex & E).
      pose proof (pstep_ok t plat Ht c p K CO) as K1.
      assert (Other : (ring_subject c <> Some k \/ exists i, c = PCall k i) ->
        exact_positions t (ki_len s) -> Forall (irop_ok t (ki_len s)) (icalls_on k h) -> lqx_answers (t_checks t) T (abst (iabs s m) T) (icalls_on k h) (answers_on k h xs')).
      { intros N _ Ho'. destruct (other_step t plat Ht c p k _ n o m K CO Hk H) as [Hk1 H1].
        { destruct N as [N|(i & N)]; [left; exact N|right; right]. exists i. split; [exact N|discriminate]. }
        exact (IH _ _ _ _ _ _ _ _ _ K1 F E Hk1 H1 I EX Ho'). }
      destruct c as [c|hint clock|hint clock|k2 c|k2 c|k2]; cbn [icalls_on answers_on] in *.
      + apply Other; auto; left; discriminate.
      + apply Other; auto; left; discriminate.
      + apply Other; auto; left; discriminate.
      + destruct (Z.eqb_spec k2 k) as [->|N]; [|apply Other; auto; left; cbn; congruence].
        assert (X : ring_answer x = []) by (cbn [pstep] in Ex; rewrite Hk in Ex; subst x; reflexivity). rewrite X. cbn [app].
        apply Other; eauto.
      + destruct (Z.eqb_spec k2 k) as [->|N]; [|apply Other; auto; left; cbn; congruence].
        apply Forall_cons_iff in Ho as [Hc Ho]. cbn [pstep] in *. rewrite Hk in *.
        destruct (pk_ring _ _ K _ _ Hk) as (Fs & _).
        pose proof (inf_call_spec t Ht s (pc_w p) n o m c H Fs CO) as A. unfold iagrees, agr in A.
        destruct (istep_exact t HG (iabs s m) T c I Hc EX) as [[[Q|[C O]] Er]|(NQ & r' & y & Er & I' & Qs & El)].
        * rewrite (inf_panics t Ht s (pc_w p) m T c I CO Q) in *. cbn [fst snd] in *. subst x. cbn [ring_answer app].
          apply lxa_panic; [exact Q|].
          refine (IH _ _ _ _ s n o m T K1 F E _ _ I EX Ho).
          -- cbn. apply put_same.
          -- destruct p as [[w0 lv cnt] rg pc]. exact H.
        * rewrite Er in A. destruct A as (s' & w' & m' & Es & _). rewrite Es in *. cbn [fst snd] in *. subst x. cbn [ring_answer app].
          apply lxa_over; assumption.
        * rewrite Er in A. destruct A as (s' & w' & Es & Eabs & Fs' & Rg & O). rewrite Es in *. cbn [fst snd] in *. subst x. cbn [ring_answer app].
          apply (lxa_ok _ _ _ _ _ (abst r' (T + lq_enters (abst (iabs s m) T) c))); [exact NQ|exact Qs|]. pose proof Fs' as (E1 & E2 & _).
          rewrite Eabs in I' |- *. refine (IH _ _ _ _ s' n o (i_mem r') _ K1 F E _ _ I' _ _).
          -- cbn. apply put_same.
          -- destruct H as [L R0 [Pv1 Pv2 Pv3] Lo Hi]. cbn [h_alloc ra_ptr ra_len] in *.
             split; cbn [h_alloc ra_ptr ra_len]; rewrite ?E1, ?E2; try assumption.
             split; cbn; [rewrite (oi_next _ _ _ O)|rewrite (oi_fd _ _ _ O)|rewrite (oi_fs _ _ _ O)]; assumption.
          -- rewrite E2. exact EX.
          -- rewrite E2. exact Ho.
      + destruct (Z.eqb_spec k2 k) as [->|N]; [constructor|apply Other; auto; left; cbn; congruence].
  Qed.
  Theorem ring_end_exact p hint clock k p1 h xs p2 : preached t plat p -> is_usize t hint ->
    pstep t plat (PRing hint clock) p = (ANew (Ret k), p1) -> Forall (pcall_ok t) h -> prun t plat h p1 = (xs, p2) ->
    exists cap, is_ceil (t_alloc t) hint cap /\
      (exact_positions t cap ->
       qx_answers (t_checks t) 0 {| q_data := []; q_free := zeros cap |} (calls_on k h) (answers_on k h xs)).
  Proof.
    intros Rp Hh E F Er. pose proof (preached_ok t plat Ht p Rp) as K.
    pose proof (pstep_ok t plat Ht (PRing hint clock) p K Hh) as K1. rewrite E in K1. cbn [snd] in K1. cbn [pstep] in E.
    destruct (new_inv t plat Ht (fun ptr len => HRing (kring_new ptr len)) _ _ _ _ _ K Hh (fun _ _ => eq_refl) E) as (pg & cap & n & o & IC & L1 & L2 & Hk & H).
    exists cap. split; [exact IC|]. intros EX.
    pose proof (make_inv t HB cap (fun _ => 0) L1 ltac:(lia)) as I.
    replace {| q_data := []; q_free := zeros cap |} with (absq (abs (kring_new pg cap) (fun _ => 0)) 0 0).
    - exact (ring_exact h p1 xs p2 k (kring_new pg cap) n o _ 0 0 K1 F Er Hk H I EX).
    - unfold absq. cbn [abs kring_new r_mem r_len k_len]. rewrite !Z.sub_0_r. rewrite view_zeros by exact L1. reflexivity.
  Qed.
  Theorem inf_end_exact p hint clock k p1 h xs p2 : preached t plat p -> is_usize t hint ->
    pstep t plat (PInf hint clock) p = (ANew (Ret k), p1) -> Forall (pcall_ok t) h -> prun t plat h p1 = (xs, p2) ->
    exists cap, is_ceil (t_alloc t) hint cap /\
      (exact_positions t cap -> Forall (irop_ok t cap) (icalls_on k h) ->
       lqx_answers (t_checks t) 0 {| lq_tape := zeros cap; lq_len := 0 |} (icalls_on k h) (answers_on k h xs)).
  Proof.
    intros Rp Hh E F Er. pose proof (preached_ok t plat Ht p Rp) as K.
    pose proof (pstep_ok t plat Ht (PInf hint clock) p K Hh) as K1. rewrite E in K1. cbn [snd] in K1. cbn [pstep] in E.
    destruct (new_inv t plat Ht (fun ptr len => HInf (kiring_new ptr len)) _ _ _ _ _ K Hh (fun _ _ => eq_refl) E) as (pg & cap & n & o & IC & L1 & L2 & Hk & H).
    exists cap. split; [exact IC|]. intros EX Ho.
    pose proof (imake_inv t HB cap (fun _ => 0) L1 L2) as I.
    replace {| lq_tape := zeros cap; lq_len := 0 |} with (abst (iabs (kiring_new pg cap) (fun _ => 0)) 0).
    - exact (inf_exact h p1 xs p2 k (kiring_new pg cap) n o _ 0 K1 F Er Hk H I EX Ho).
    - unfold abst. cbn [iabs kiring_new i_mem i_len i_rlen ki_len ki_rlen]. rewrite view_zeros by exact L1. reflexivity.
  Qed.

  (** ** The converse *)
  Lemma ring_replies_of os : forall p xs p2 k s n o m c q, pok t p -> Forall (rop_ok t) os -> prun t plat (map (PCall k) os) p = (xs, p2) ->
    pc_ring p k = Some (HRing s) -> at_home t (pc_w p) (HRing s) n o m ->
    qx_answers (t_checks t) c q os (answers_on k (map (PCall k) os) xs) -> ring_replies t (t_checks t) c q (abs s m) os.
  Proof.
    induction os as [|a os IH]; intros p xs p2 k s n o m c q K F E Hk H Qa.
    - exists (Some (q, [])). split; [constructor|]. eexists. reflexivity.
    - cbn [map] in E. apply Forall_cons_iff in F as [Hc F]. apply prun_cons in E as (x & xs' & -> & Ex & E).
      pose proof (pstep_ok t plat Ht (PCall k a) p K Hc) as K1. cbn [map answers_on] in Qa. rewrite Z.eqb_refl in Qa.
      cbn [pstep] in *. rewrite Hk in *. destruct (pk_ring _ _ K _ _ Hk) as (Fs & _).
      pose proof (ring_call_spec t Ht s (pc_w p) n o m a H Fs Hc) as A. unfold agrees, agr in A.
      unfold ring_replies. cbn [ring_run].
      destruct (ring_step t (abs s m) a) as [[r' y]|e| | |] eqn:Er; try contradiction A.
      + destruct A as (s' & w' & Es & Eabs & Fs' & Rg & O). rewrite Es in *. cbn [fst snd] in *. subst x. cbn [ring_answer app] in Qa.
        inversion Qa as [|c0 q0 o0 os0 q' x0 xs0 NQ Qs Qa'| | ]; subst c0 q0 o0 os0 x0 xs0. pose proof Fs' as (E1 & E2 & _).
        assert (R : ring_replies t (t_checks t) (qx_count c q a) q' (abs s' (r_mem r')) os).
        { refine (IH _ _ _ _ s' n o (r_mem r') _ _ K1 F E _ _ Qa').
          - cbn. apply put_same.
          - destruct H as [L R0 [Pv1 Pv2 Pv3] Lo Hi]. cbn [h_alloc ra_ptr ra_len] in *.
            split; cbn [h_alloc ra_ptr ra_len]; rewrite ?E1, ?E2; try assumption.
            split; cbn; [rewrite (oi_next _ _ _ O)|rewrite (oi_fd _ _ _ O)|rewrite (oi_fs _ _ _ O)]; assumption. }
        cbn [obind fst snd]. rewrite <- Eabs in R. destruct R as ([[q2 ys]|] & Q2 & M).
        * exists (Some (q2, y :: ys)). split; [eapply qx_ok; eassumption|]. destruct M as (r2 & ->). cbn [obind fst snd]. eauto.
        * exists None. split; [eapply qx_later; eassumption|]. rewrite M. reflexivity.
      + destruct A as (s' & w' & m' & Es & _). rewrite Es in *. cbn [fst snd] in *. subst x. cbn [ring_answer app] in Qa.
        exists None. split; [|reflexivity]. apply qx_panic. inversion Qa; subst; [left|right]; auto.
  Qed.
  Lemma inf_replies_of os : forall p xs p2 k s n o m c q, pok t p -> Forall (irop_args t) os -> prun t plat (map (PICall k) os) p = (xs, p2) ->
    pc_ring p k = Some (HInf s) -> at_home t (pc_w p) (HInf s) n o m ->
    lqx_answers (t_checks t) c q os (answers_on k (map (PICall k) os) xs) -> iring_replies t (t_checks t) c q (iabs s m) os.
  Proof.
    induction os as [|a os IH]; intros p xs p2 k s n o m c q K F E Hk H Qa.
    - exists (Some (q, [])). split; [constructor|]. eexists. reflexivity.
    - cbn [map] in E. apply Forall_cons_iff in F as [Hc F]. apply prun_cons in E as (x & xs' & -> & Ex & E).
      pose proof (pstep_ok t plat Ht (PICall k a) p K Hc) as K1. cbn [map answers_on] in Qa. rewrite Z.eqb_refl in Qa.
      cbn [pstep] in *. rewrite Hk in *. destruct (pk_ring _ _ K _ _ Hk) as (Fs & _).
      pose proof (inf_call_spec t Ht s (pc_w p) n o m a H Fs Hc) as A. unfold iagrees, agr in A.
      unfold iring_replies. cbn [iring_run].
      destruct (iring_step t (iabs s m) a) as [[r' y]|e| | |] eqn:Er; try contradiction A.
      + destruct A as (s' & w' & Es & Eabs & Fs' & Rg & O). rewrite Es in *. cbn [fst snd] in *. subst x. cbn [ring_answer app] in Qa.
        inversion Qa as [|c0 q0 o0 os0 q' x0 xs0 NQ Qs Qa'| | ]; subst c0 q0 o0 os0 x0 xs0. pose proof Fs' as (E1 & E2 & _).
        assert (R : iring_replies t (t_checks t) (c + lq_enters q a) q' (iabs s' (i_mem r')) os).
        { refine (IH _ _ _ _ s' n o (i_mem r') _ _ K1 F E _ _ Qa').
          - cbn. apply put_same.
          - destruct H as [L R0 [Pv1 Pv2 Pv3] Lo Hi]. cbn [h_alloc ra_ptr ra_len] in *.
            split; cbn [h_alloc ra_ptr ra_len]; rewrite ?E1, ?E2; try assumption.
            split; cbn; [rewrite (oi_next _ _ _ O)|rewrite (oi_fd _ _ _ O)|rewrite (oi_fs _ _ _ O)]; assumption. }
        cbn [obind fst snd]. rewrite <- Eabs in R. destruct R as ([[q2 ys]|] & Q2 & M).
        * exists (Some (q2, y :: ys)). split; [eapply lqx_ok; eassumption|]. destruct M as (r2 & ->). cbn [obind fst snd]. eauto.
        * exists None. split; [eapply lqx_later; eassumption|]. rewrite M. reflexivity.
      + destruct A as (s' & w' & m' & Es & _). rewrite Es in *. cbn [fst snd] in *. subst x. cbn [ring_answer app] in Qa.
        exists None. split; [|reflexivity]. apply lqx_panic. inversion Qa; subst; [left|right]; auto.
  Qed.

  Theorem ring_end_iff p hint clock k p1 : preached t plat p -> is_usize t hint ->
    pstep t plat (PRing hint clock) p = (ANew (Ret k), p1) ->
    exists cap, is_ceil (t_alloc t) hint cap /\
      (exact_positions t cap <-> forall h xs p2, Forall (pcall_ok t) h -> prun t plat h p1 = (xs, p2) ->
       qx_answers (t_checks t) 0 {| q_data := []; q_free := zeros cap |} (calls_on k h) (answers_on k h xs)).
  Proof.
    intros Rp Hh E. pose proof (preached_ok t plat Ht p Rp) as K.
    pose proof (pstep_ok t plat Ht (PRing hint clock) p K Hh) as K1. rewrite E in K1. cbn [snd] in K1. pose proof E as E0. cbn [pstep] in E.
    destruct (new_inv t plat Ht (fun ptr len => HRing (kring_new ptr len)) _ _ _ _ _ K Hh (fun _ _ => eq_refl) E) as (pg & cap & n & o & IC & L1 & L2 & Hk & H).
    exists cap. split; [exact IC|]. split.
    - intros EX h xs p2 F Er. destruct (ring_end_exact p hint clock k p1 h xs p2 Rp Hh E0 F Er) as (cap' & IC' & A).
      assert (cap' = cap) as -> by exact (ceil_unique _ _ _ _ IC' IC). exact (A EX).
    - intros A. destruct (exact_dec t cap) as [D|D]; [exact D|]. exfalso. destruct (ring_jump t HG cap L1 L2 D) as (os & Ho & N). apply N.
      destruct (prun t plat (map (PCall k) os) p1) as [xs p2] eqn:Er. specialize (A (map (PCall k) os) xs p2).
      rewrite calls_on_map in A. replace (view (fun _ => 0) 0 cap) with (zeros cap).
      + refine (ring_replies_of os p1 xs p2 k (kring_new pg cap) n o (fun _ => 0) _ _ K1 Ho Er Hk H (A _ Er)).
        apply Forall_map. exact Ho.
      + symmetry. apply view_zeros'.
  Qed.
  Theorem inf_end_iff p hint clock k p1 : preached t plat p -> is_usize t hint ->
    pstep t plat (PInf hint clock) p = (ANew (Ret k), p1) ->
    exists cap, is_ceil (t_alloc t) hint cap /\
      (exact_positions t cap <-> forall h xs p2, Forall (pcall_ok t) h -> Forall (irop_ok t cap) (icalls_on k h) -> prun t plat h p1 = (xs, p2) ->
       lqx_answers (t_checks t) 0 {| lq_tape := zeros cap; lq_len := 0 |} (icalls_on k h) (answers_on k h xs)).
  Proof.
    intros Rp Hh E. pose proof (preached_ok t plat Ht p Rp) as K.
    pose proof (pstep_ok t plat Ht (PInf hint clock) p K Hh) as K1. rewrite E in K1. cbn [snd] in K1. pose proof E as E0. cbn [pstep] in E.
    destruct (new_inv t plat Ht (fun ptr len => HInf (kiring_new ptr len)) _ _ _ _ _ K Hh (fun _ _ => eq_refl) E) as (pg & cap & n & o & IC & L1 & L2 & Hk & H).
    exists cap. split; [exact IC|]. split.
    - intros EX h xs p2 F Fi Er. destruct (inf_end_exact p hint clock k p1 h xs p2 Rp Hh E0 F Er) as (cap' & IC' & A).
      assert (cap' = cap) as -> by exact (ceil_unique _ _ _ _ IC' IC). exact (A EX Fi).
    - intros A. destruct (exact_dec t cap) as [D|D]; [exact D|]. exfalso. destruct (iring_jump t HG cap L1 L2 D) as (os & Ho & N). apply N.
      assert (Ho' : Forall (irop_args t) os) by (refine (Forall_impl _ _ Ho); intros a; apply irop_ok_args).
      destruct (prun t plat (map (PICall k) os) p1) as [xs p2] eqn:Er. specialize (A (map (PICall k) os) xs p2).
      rewrite icalls_on_map in A. replace (view (fun _ => 0) 0 cap) with (zeros cap).
      + refine (inf_replies_of os p1 xs p2 k (kiring_new pg cap) n o (fun _ => 0) _ _ K1 Ho' Er Hk H (A _ Ho Er)).
        apply Forall_map. exact Ho'.
      + symmetry. apply view_zeros'.
  Qed.
End Exact.
