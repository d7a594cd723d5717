(** Lemmas behind the properties of programs with maps and rings on Windows. *)
From Coq Require Import Lia.
From Verif Require Import Base Spec ErrorModel RingSpec RingModel SizeModel SizeProofs SeqProofs OsModel MapModel MapSpec OsProofs MapProofs MapCreate MapOps
  RingMapModel RingMapSpec MirrorProofs RingMapClaims RingProofs IRingProofs RingWeak MemRingModel MemRingProofs
  ApiModel ApiSpec ApiProofs ProcModel ProcSpec ProcFrame ProcProofs ProcClaims
  WinModel WinSpec WinProofs WinClaims WinCalls WinMapModel WinMapSpec WinSpace WinKeep WinMapProofs WinAlloc WinThings WinHist WinLeak WinMapClaims
  WinProcModel WinProcSpec WinProcProofs.

(** ** Calls that must panic change nothing, whatever memory is made of *)
Section Panics.
  Variable t : target.
  Hypothesis HB : 32 <= t_bits t <= 64.
  Variable W : Type.
  Variable peek : W -> Z -> out io_error byte.
  Variable poke : Z -> byte -> W -> out io_error unit * W.

  Lemma ring_panics_any s w m T R c : inv t (abs s m) T R -> rop_ok t c -> q_panics (absq (abs s m) T R) c ->
    kring_step t W peek poke c s w = (Panic, (s, w)).
  Proof.
    intros I Hc Q. pose proof (absq_free_len t HB _ _ _ I) as FL. pose proof (write_len_eq t HB _ _ _ I) as WL.
    change (ring_write_len t (abs s m)) with (kring_write_len t s) in WL.
    pose proof (inv_len _ _ _ _ I) as Hl. cbn [abs r_len] in *.
    destruct c; try (exfalso; exact Q); cbn [q_panics rop_ok] in *; rewrite FL in Q.
    - unfold kring_step, m_slice_store, as_write_slice, mbind, mout. cbn [kring_ops s_write_offset s_write_len s_ptr].
      unfold urem. rewrite (proj2 (Z.eqb_neq (k_len s) 0)) by lia. cbn [obind]. rewrite WL. cbn [obind].
      destruct (Z.leb_spec 0 i); cbn [andb]; [|reflexivity]. destruct (Z.leb_spec (i + zlen d) (Z.min (k_len s - (T - R)) max)); [|reflexivity].
      exfalso. apply Q. lia.
    - unfold kring_step, put_slice, mbind, mout. cbn [kring_ops s_write_len]. rewrite WL. rewrite (proj2 (Z.ltb_lt _ _) Q). reflexivity.
  Qed.
  Lemma inf_panics_any s w m T c : iinv t (iabs s m) T -> irop_args t c -> lq_panics (abst (iabs s m) T) c ->
    kiring_step t W peek poke c s w = (Panic, (s, w)).
  Proof.
    intros I Hc Q. pose proof (abst_tape_len t HB _ _ I) as FL. pose proof (ii_len _ _ _ I) as Hl. cbn [iabs i_len] in *.
    destruct c; try (exfalso; exact Q); cbn [lq_panics irop_args] in *; rewrite FL in Q.
    unfold kiring_step, m_slice_store, as_write_slice, mbind, mout. cbn [kiring_ops s_write_offset s_write_len s_ptr].
    unfold urem. rewrite (proj2 (Z.eqb_neq (ki_len s) 0)) by lia. cbn [obind].
    destruct (Z.leb_spec 0 i); cbn [andb]; [|reflexivity]. destruct (Z.leb_spec (i + zlen d) (Z.min (ki_len s) max)); [|reflexivity].
    exfalso. apply Q. lia.
  Qed.
End Panics.

Section Claims.
  Variable t : target.
  Hypothesis Ht : good_target t.
  Notation P := (t_page t).
  Let HP : 0 < P.
  Proof. exact (pow2_pos _ (proj1 (proj2 Ht))). Qed.
  Let HB : 32 <= t_bits t <= 64.
  Proof. destruct Ht as [[E|E] _]; lia. Qed.

  (** A call that is not made on ring [k]. *)
  Lemma wother_step c p k h o m : wpok t p -> wpcall_ok t c -> wp_ring p k = Some h -> g_tab (wp_g p) k = Some (TRing (h_alloc h) o) ->
    rst t (wp_g p) (h_alloc h) o (g_s (wp_g p)) m ->
    (wp_subject c <> Some k \/ (exists i, c = WICall k i /\ forall s, h <> HInf s) \/ (exists i, c = WCall k i /\ forall s, h <> HRing s)) ->
    let p' := snd (wpstep t c p) in
    wpok t p' /\ wp_ring p' k = Some h /\ g_tab (wp_g p') k = Some (TRing (h_alloc h) o) /\ rst t (wp_g p') (h_alloc h) o (g_s (wp_g p')) m.
  Proof.
    intros K Hc Hk Ho Hr N p'. destruct (wpstep_traced t Ht c p K Hc) as (hs & T). fold p' in T. split; [exact (tr_pok _ _ _ _ _ T)|].
    destruct N as [N|N].
    - destruct (tr_rings _ _ _ _ _ T k h Hk N) as [Hk' Nt]. split; [exact Hk'|].
      destruct (kept_ring t Ht hs _ k _ _ m (tr_ok _ _ _ _ _ T) Nt (wk_prog _ _ K) Ho (proj2 Hr)) as [Ho' Hr'].
      rewrite <- (tr_run _ _ _ _ _ T) in Ho', Hr'. split; [exact Ho'|]. split; [|exact Hr'].
      pose proof (wk_prog _ _ (tr_pok _ _ _ _ _ T)) as W'. destruct (wp_g p'); exact W'.
    - assert (p' = p) as ->; [|auto]. unfold p'. destruct N as [(i & -> & N)|(i & -> & N)]; cbn [wpstep]; rewrite Hk;
        destruct h as [v|v]; try reflexivity; exfalso; exact (N v eq_refl).
  Qed.

  Lemma wprun_cons c h p xs p2 : wprun t (c :: h) p = (xs, p2) ->
    exists x xs', xs = x :: xs' /\ fst (wpstep t c p) = x /\ wprun t h (snd (wpstep t c p)) = (xs', p2).
  Proof.
    cbn [wprun]. destruct (wpstep t c p) as [x p1]. destruct (wprun t h p1) as [xs' p3] eqn:E. intros [= <- <-].
    exists x, xs'. auto.
  Qed.

  Lemma wring_history h : forall p xs p2 k s o m T R acc, wpok t p -> Forall (wpcall_ok t) h -> wprun t h p = (xs, p2) ->
    wp_ring p k = Some (HRing s) -> g_tab (wp_g p) k = Some (TRing (h_alloc (HRing s)) o) ->
    rst t (wp_g p) (h_alloc (HRing s)) o (g_s (wp_g p)) m -> inv t (abs s m) T R -> T <= acc ->
    history_ok t acc (k_len s) (wcalls_on k h) ->
    q_answers (absq (abs s m) T R) (wcalls_on k h) (wanswers_on k h xs).
  Proof.
    induction h as [|c h IH]; intros p xs p2 k s o m T R acc K F E Hk Hg H I HT Ho.
    - injection E as <- <-. constructor.
    - apply Forall_cons_iff in F as [CO F]. apply wprun_cons in E as (x & xs' & -> & Ex & E).
      assert (Other : (wp_subject c <> Some k \/ exists i, c = WICall k i) ->
        history_ok t acc (k_len s) (wcalls_on k h) -> q_answers (absq (abs s m) T R) (wcalls_on k h) (wanswers_on k h xs')).
      { intros N Ho'. destruct (wother_step c p k _ o m K CO Hk Hg H) as (K1 & Hk1 & Hg1 & H1).
        { destruct N as [N|(i & N)]; [left; exact N|right; left]. exists i. split; [exact N|discriminate]. }
        exact (IH _ _ _ _ _ _ _ _ _ _ K1 F E Hk1 Hg1 H1 I HT Ho'). }
      destruct c as [a|hint|hint|k2 c|k2 c|k2]; cbn [wcalls_on wanswers_on] in *.
      + apply Other; auto; left; discriminate.
      + apply Other; auto; left; discriminate.
      + apply Other; auto; left; discriminate.
      + destruct (Z.eqb_spec k2 k) as [->|N]; [|apply Other; auto; left; cbn; congruence].
        destruct (wpstep_traced t Ht (WCall k c) p K CO) as (hs & Tr). pose proof (tr_pok _ _ _ _ _ Tr) as K1. clear Tr hs.
        cbn [history_ok] in Ho. destruct Ho as (Hc & Hpos & Ho). cbn [wpstep] in *. rewrite Hk in *.
        destruct (wk_ring _ _ K _ _ Hk) as (Fs & _).
        pose proof (wring_call_spec t Ht (wp_g p) k _ o Hg s (g_s (wp_g p)) m c eq_refl Fs H Hc) as A. unfold agrees, agr in A.
        destruct (step_sim t HB (abs s m) T R c acc I HT Hc Hpos) as [[Q _]|[NQ (r' & y & T' & R' & Er & I' & HT' & Qs & El)]].
        * rewrite (ring_panics_any t HB win (wpeek t) (wpoke t) s (g_s (wp_g p)) m T R c I Hc Q) in *. cbn [fst snd] in *. subst x. cbn [wring_answer app].
          apply qa_panic; [exact Q|].
          refine (IH _ _ _ _ s o m T R (next_total acc (k_len s) c) K1 F E _ Hg H I _ Ho).
          -- cbn. apply put_same.
          -- destruct c; try (exfalso; exact Q); cbn; [lia|]. pose proof (zlen_nonneg b). pose proof (inv_len _ _ _ _ I). cbn in *. lia.
        * rewrite Er in A. destruct A as (s' & w' & Es & Eabs & Fs' & Rg & O). rewrite Es in *. cbn [fst snd] in *. subst x. cbn [wring_answer app].
          apply (qa_ok _ _ _ (absq r' T' R')); [exact NQ|exact Qs|]. pose proof Fs' as (E1 & E2 & _).
          assert (Ea : h_alloc (HRing s') = h_alloc (HRing s)) by (cbn; rewrite E1, E2; reflexivity).
          rewrite Eabs in I' |- *. refine (IH _ _ _ _ s' o (r_mem r') T' R' (next_total acc (k_len s) c) K1 F E _ _ _ I' HT' _).
          -- cbn. apply put_same.
          -- rewrite Ea. exact Hg.
          -- rewrite Ea. exact Rg.
          -- rewrite E2. exact Ho.
      + destruct (Z.eqb_spec k2 k) as [->|N]; [|apply Other; auto; left; cbn; congruence].
        assert (X : wring_answer x = []) by (cbn [wpstep] in Ex; rewrite Hk in Ex; subst x; reflexivity). rewrite X. cbn [app].
        apply Other; eauto.
      + destruct (Z.eqb_spec k2 k) as [->|N]; [constructor|apply Other; auto; left; cbn; congruence].
  Qed.

  Lemma winf_history h : forall p xs p2 k s o m T acc, wpok t p -> Forall (wpcall_ok t) h -> wprun t h p = (xs, p2) ->
    wp_ring p k = Some (HInf s) -> g_tab (wp_g p) k = Some (TRing (h_alloc (HInf s)) o) ->
    rst t (wp_g p) (h_alloc (HInf s)) o (g_s (wp_g p)) m -> iinv t (iabs s m) T -> T <= acc ->
    ihistory_ok t acc (ki_len s) (wicalls_on k h) ->
    lq_answers (abst (iabs s m) T) (wicalls_on k h) (wanswers_on k h xs).
  Proof.
    induction h as [|c h IH]; intros p xs p2 k s o m T acc K F E Hk Hg H I HT Ho.
    - injection E as <- <-. constructor.
    - apply Forall_cons_iff in F as [CO F]. apply wprun_cons in E as (x & xs' & -> & Ex & E).
      assert (Other : (wp_subject c <> Some k \/ exists i, c = WCall k i) ->
        ihistory_ok t acc (ki_len s) (wicalls_on k h) -> lq_answers (abst (iabs s m) T) (wicalls_on k h) (wanswers_on k h xs')).
      { intros N Ho'. destruct (wother_step c p k _ o m K CO Hk Hg H) as (K1 & Hk1 & Hg1 & H1).
        { destruct N as [N|(i & N)]; [left; exact N|right; right]. exists i. split; [exact N|discriminate]. }
        exact (IH _ _ _ _ _ _ _ _ _ K1 F E Hk1 Hg1 H1 I HT Ho'). }
      destruct c as [a|hint|hint|k2 c|k2 c|k2]; cbn [wicalls_on wanswers_on] in *.
      + apply Other; auto; left; discriminate.
      + apply Other; auto; left; discriminate.
      + apply Other; auto; left; discriminate.
      + destruct (Z.eqb_spec k2 k) as [->|N]; [|apply Other; auto; left; cbn; congruence].
        assert (X : wring_answer x = []) by (cbn [wpstep] in Ex; rewrite Hk in Ex; subst x; reflexivity). rewrite X. cbn [app].
        apply Other; eauto.
      + destruct (Z.eqb_spec k2 k) as [->|N]; [|apply Other; auto; left; cbn; congruence].
        destruct (wpstep_traced t Ht (WICall k c) p K CO) as (hs & Tr). pose proof (tr_pok _ _ _ _ _ Tr) as K1. clear Tr hs.
        cbn [ihistory_ok] in Ho. destruct Ho as (Hc & Hpos & Ho). cbn [wpstep] in *. rewrite Hk in *.
        destruct (wk_ring _ _ K _ _ Hk) as (Fs & _).
        pose proof (winf_call_spec t Ht (wp_g p) k _ o Hg s (g_s (wp_g p)) m c eq_refl Fs H CO) as A. unfold iagrees, agr in A.
        destruct (istep_sim t HB (iabs s m) T c acc I HT Hc Hpos) as [[Q _]|[NQ (r' & y & T' & Er & I' & HT' & Qs & El)]].
        * rewrite (inf_panics_any t HB win (wpeek t) (wpoke t) s (g_s (wp_g p)) m T c I CO Q) in *. cbn [fst snd] in *. subst x. cbn [wring_answer app].
          apply la_panic; [exact Q|].
          refine (IH _ _ _ _ s o m T (acc + irop_weight (ki_len s) c) K1 F E _ Hg H I _ Ho).
          -- cbn. apply put_same.
          -- destruct c; try (exfalso; exact Q); cbn; lia.
        * rewrite Er in A. destruct A as (s' & w' & Es & Eabs & Fs' & Rg & O). rewrite Es in *. cbn [fst snd] in *. subst x. cbn [wring_answer app].
          apply (la_ok _ _ _ (abst r' T')); [exact NQ|exact Qs|]. pose proof Fs' as (E1 & E2 & _).
          assert (Ea : h_alloc (HInf s') = h_alloc (HInf s)) by (cbn; rewrite E1, E2; reflexivity).
          rewrite Eabs in I' |- *. refine (IH _ _ _ _ s' o (i_mem r') T' (acc + irop_weight (ki_len s) c) K1 F E _ _ _ I' HT' _).
          -- cbn. apply put_same.
          -- rewrite Ea. exact Hg.
          -- rewrite Ea. exact Rg.
          -- rewrite E2. exact Ho.
      + destruct (Z.eqb_spec k2 k) as [->|N]; [constructor|apply Other; auto; left; cbn; congruence].
  Qed.

  Lemma wnew_inv c mk hint p k p1 : wpok t p -> is_usize t hint -> (forall pg len, h_alloc (mk pg len) = {| ra_ptr := pg; ra_len := len |}) ->
    wpcall_ok t c -> wpstep t c p = wp_new t mk hint p ->
    wp_new t mk hint p = (WNew (Ret k), p1) ->
    exists pg cap o, is_ceil (t_alloc t) hint cap /\ 0 < cap /\ 2 * cap < 2 ^ t_bits t /\ wpok t p1 /\
      wp_ring p1 k = Some (mk pg cap) /\ g_tab (wp_g p1) k = Some (TRing (h_alloc (mk pg cap)) o) /\
      rst t (wp_g p1) (h_alloc (mk pg cap)) o (g_s (wp_g p1)) (fun _ => 0).
  Proof.
    intros K Hh Ha Hc Ec E. destruct (wpstep_traced t Ht c p K Hc) as (hs & Tr). pose proof (tr_pok _ _ _ _ _ Tr) as K1. clear Tr hs.
    rewrite Ec, E in K1. cbn [snd] in K1. unfold wp_new in E.
    destruct (win_ring_new t hint (g_s (wp_g p))) as [r s'] eqn:En. destruct r as [a|e| | |]; try discriminate E. injection E as <- <-.
    pose proof (win_ring_new_spec t Ht _ _ _ _ Hh En) as (IC & Em & Ul).
    destruct (win_map_ring_spec t Ht _ _ _ _ Ul Em) as (l & _ & _ & _ & (n & En' & W) & _).
    pose proof (wr_n _ _ _ _ _ _ W). pose proof (wr_low _ _ _ _ _ _ W). pose proof (wr_high _ _ _ _ _ _ W).
    exists (ra_ptr a), (ra_len a), (w_next (n_w (g_s (wp_g p)))). split; [exact IC|]. rewrite En' in *.
    split; [nia|]. split; [lia|]. split; [exact K1|]. cbn [wp_ring wp_g g_add g_tab g_s]. split; [apply put_same|].
    rewrite put_same, Ha. rewrite <- En'. split; [destruct a; reflexivity|]. split; [exact (wk_prog _ _ K1)|].
    intros v _. apply (wr_zero _ _ _ _ _ _ W).
  Qed.

  Theorem wring_end_to_end p hint k p1 h xs p2 : wpreached t p -> is_usize t hint ->
    wpstep t (WRing hint) p = (WNew (Ret k), p1) -> Forall (wpcall_ok t) h -> wprun t h p1 = (xs, p2) ->
    exists cap, is_ceil (t_alloc t) hint cap /\
      (history_ok t 0 cap (wcalls_on k h) ->
       q_answers {| q_data := []; q_free := zeros cap |} (wcalls_on k h) (wanswers_on k h xs)).
  Proof.
    intros Rp Hh E F Er. pose proof (wpreached_ok t Ht p Rp) as K.
    destruct (wnew_inv (WRing hint) (fun ptr len => HRing (kring_new ptr len)) _ _ _ _ K Hh (fun _ _ => eq_refl) Hh eq_refl E)
      as (pg & cap & o & IC & L1 & L2 & K1 & Hk & Hg & H).
    exists cap. split; [exact IC|]. intros Ho.
    pose proof (make_inv t HB cap (fun _ => 0) L1 ltac:(lia)) as I.
    replace {| q_data := []; q_free := zeros cap |} with (absq (abs (kring_new pg cap) (fun _ => 0)) 0 0).
    - exact (wring_history h p1 xs p2 k (kring_new pg cap) o _ 0 0 0 K1 F Er Hk Hg H I ltac:(lia) Ho).
    - unfold absq. cbn [abs kring_new r_mem r_len k_len]. rewrite !Z.sub_0_r. rewrite view_zeros by exact L1. reflexivity.
  Qed.
  Theorem winf_end_to_end p hint k p1 h xs p2 : wpreached t p -> is_usize t hint ->
    wpstep t (WInf hint) p = (WNew (Ret k), p1) -> Forall (wpcall_ok t) h -> wprun t h p1 = (xs, p2) ->
    exists cap, is_ceil (t_alloc t) hint cap /\
      (ihistory_ok t 0 cap (wicalls_on k h) ->
       lq_answers {| lq_tape := zeros cap; lq_len := 0 |} (wicalls_on k h) (wanswers_on k h xs)).
  Proof.
    intros Rp Hh E F Er. pose proof (wpreached_ok t Ht p Rp) as K.
    destruct (wnew_inv (WInf hint) (fun ptr len => HInf (kiring_new ptr len)) _ _ _ _ K Hh (fun _ _ => eq_refl) Hh eq_refl E)
      as (pg & cap & o & IC & L1 & L2 & K1 & Hk & Hg & H).
    exists cap. split; [exact IC|]. intros Ho.
    pose proof (imake_inv t HB cap (fun _ => 0) L1 L2) as I.
    replace {| lq_tape := zeros cap; lq_len := 0 |} with (abst (iabs (kiring_new pg cap) (fun _ => 0)) 0).
    - exact (winf_history h p1 xs p2 k (kiring_new pg cap) o _ 0 0 K1 F Er Hk Hg H I ltac:(lia) Ho).
    - unfold abst. cbn [iabs kiring_new i_mem i_len i_rlen ki_len ki_rlen]. rewrite view_zeros by exact L1. reflexivity.
  Qed.

  (** ** No interference *)
  Lemma wp_history p : wpreached t p -> exists s hs, fresh_start s /\ Forall (act_ok t) hs /\ wp_g p = act_run t hs (holds_nothing s).
  Proof.
    induction 1 as [s Fs|p c R IH Hc].
    - exists s, []. auto.
    - destruct IH as (s & h & Fs & F & E). destruct (wpstep_traced t Ht c p (wpreached_ok t Ht p R) Hc) as (hs & T).
      exists s, (h ++ hs). split; [exact Fs|]. split; [apply Forall_app; split; [exact F|exact (tr_ok _ _ _ _ _ T)]|].
      rewrite act_run_app, <- E. exact (tr_run _ _ _ _ _ T).
  Qed.
  Lemma wp_isolation c p k x : wpreached t p -> wpcall_ok t c -> g_tab (wp_g p) k = Some x -> private_thing x = true -> ~ wp_touches c k ->
    let g' := wp_g (snd (wpstep t c p)) in
    exists x', g_tab g' k = Some x' /\ same_thing x x' /\ forall i, reading t g' k i = reading t (wp_g p) k i.
  Proof.
    intros R Hc Hk Hp Nt g'. pose proof (wpreached_ok t Ht p R) as K. destruct (wpstep_traced t Ht c p K Hc) as (hs & T).
    unfold g'. rewrite (tr_run _ _ _ _ _ T).
    exact (kept_run t Ht hs _ k x (tr_ok _ _ _ _ _ T) (tr_touch _ _ _ _ _ T k Nt) (wk_prog _ _ K) Hk Hp).
  Qed.
  (** Calls on maps do nothing to rings, even those aimed at them. *)
  Lemma wp_rings_kept c p k h : wpreached t p -> wpcall_ok t c -> wp_ring p k = Some h -> wp_subject c <> Some k ->
    let p' := snd (wpstep t c p) in
    wp_ring p' k = Some h /\ forall i, reading t (wp_g p') k i = reading t (wp_g p) k i.
  Proof.
    intros R Hc Hk Ns p'. pose proof (wpreached_ok t Ht p R) as K. destruct (wpstep_traced t Ht c p K Hc) as (hs & T). fold p' in T.
    destruct (tr_rings _ _ _ _ _ T k h Hk Ns) as [Hk' Nt]. split; [exact Hk'|]. destruct (wk_ring _ _ K _ _ Hk) as (_ & o & Ho).
    rewrite (tr_run _ _ _ _ _ T). destruct (kept_run t Ht hs _ k _ (tr_ok _ _ _ _ _ T) Nt (wk_prog _ _ K) Ho eq_refl) as (x' & _ & _ & Rd). exact Rd.
  Qed.

  (** What a call on ring [k] did. *)
  Lemma wp_call_spec c p r p' : wpreached t p -> wpcall_ok t c -> wpstep t c p = (WAns r, p') ->
    (r = Panic \/ exists y, r = Ret y) /\
    exists k h o, wp_subject c = Some k /\ wp_ring p k = Some h /\ g_tab (wp_g p) k = Some (TRing (h_alloc h) o) /\
      run_sets t (wp_g p) k o (g_s (wp_g p)) (g_s (wp_g p')) /\ wp_g p' = g_set (wp_g p) (g_s (wp_g p')).
  Proof.
    intros R Hc E. pose proof (wpreached_ok t Ht p R) as K.
    destruct c as [a|hint|hint|k o|k o|k]; cbn [wpstep wpcall_ok] in *.
    - destruct (on_maps p a); [destruct (act_step t a (wp_g p))|]; discriminate E.
    - unfold wp_new in E. destruct (win_ring_new t hint (g_s (wp_g p))) as [[] s']; discriminate E.
    - unfold wp_new in E. destruct (win_ring_new t hint (g_s (wp_g p))) as [[] s']; discriminate E.
    - destruct (wp_ring p k) as [[v|v]|] eqn:Hk; try discriminate E. destruct (wk_ring _ _ K _ _ Hk) as (F & ob & Ho).
      destruct (kring_step t win (wpeek t) (wpoke t) o v (g_s (wp_g p))) as [x [v' s']] eqn:Ek. injection E as -> <-.
      destruct (wring_call t Ht _ _ _ _ _ _ _ _ _ _ Ho F (rst_now t _ _ _ (wk_prog _ _ K)) Hc Ek) as (_ & _ & Rs & _ & Rr).
      split; [exact Rr|]. exists k, (HRing v), ob. auto 8.
    - destruct (wp_ring p k) as [[v|v]|] eqn:Hk; try discriminate E. destruct (wk_ring _ _ K _ _ Hk) as (F & ob & Ho).
      destruct (kiring_step t win (wpeek t) (wpoke t) o v (g_s (wp_g p))) as [x [v' s']] eqn:Ek. injection E as -> <-.
      destruct (winf_call t Ht _ _ _ _ _ _ _ _ _ _ Ho F (rst_now t _ _ _ (wk_prog _ _ K)) Hc Ek) as (_ & _ & Rs & _ & Rr).
      split; [exact Rr|]. exists k, (HInf v), ob. auto 8.
    - destruct (wp_ring p k) as [h|]; [destruct (win_ring_drop t (h_alloc h) (g_s (wp_g p)))|]; discriminate E.
  Qed.
  Lemma wp_local c p r p' : wpreached t p -> wpcall_ok t c -> wpstep t c p = (WAns r, p') ->
    exists k, wp_subject c = Some k /\
    (forall j, g_tab (wp_g p') j = g_tab (wp_g p) j) /\
    (forall j i, j <> k -> reading t (wp_g p') j i = reading t (wp_g p) j i) /\
    (forall o, named (n_w (g_s (wp_g p))) o -> w_obj (n_w (g_s (wp_g p'))) o = w_obj (n_w (g_s (wp_g p))) o) /\
    (forall fd, w_fd (n_w (g_s (wp_g p'))) fd = w_fd (n_w (g_s (wp_g p))) fd) /\
    (forall path, w_fs (n_w (g_s (wp_g p'))) path = w_fs (n_w (g_s (wp_g p))) path) /\
    same_space (g_s (wp_g p)) (g_s (wp_g p')) /\ calls (g_s (wp_g p)) (g_s (wp_g p')) [].
  Proof.
    intros R Hc E. destruct (wp_call_spec c p r p' R Hc E) as (_ & k & h & o & Sc & Hk & Ho & [_ (w' & Es & O)] & Eg).
    pose proof (wpreached_ok t Ht p R) as K. pose proof (wk_prog _ _ K) as Hg.
    destruct (po_own _ _ Hg _ _ Ho eq_refl) as [Nn Oo]. cbn [obj_of] in *.
    assert (Ew : n_w (g_s (wp_g p')) = w') by (rewrite Es; reflexivity).
    exists k. split; [exact Sc|]. split; [intros j; rewrite Eg; reflexivity|]. split; [|rewrite Ew; split; [|split; [|split; [|split]]]].
    - intros j i Nj. destruct (g_tab (wp_g p) j) as [x|] eqn:Hj.
      + assert (Hj' : g_tab (wp_g p') j = Some x) by (rewrite Eg; exact Hj).
        pose proof (po_thing _ _ Hg _ _ Hj) as T1.
        assert (K1 : wpok t p').
        { destruct (wpstep_traced t Ht c p K Hc) as (hs & Tr). rewrite E in Tr. exact (tr_pok _ _ _ _ _ Tr). }
        rewrite (reading_eq t Ht _ j x i Hj T1), (reading_eq t Ht _ j x i Hj' (po_thing _ _ (wk_prog _ _ K1) _ _ Hj')).
        destruct ((0 <=? i) && (i <? size_of x)) eqn:B; [|reflexivity]. f_equal. rewrite Ew.
        apply andb_true_iff in B as [B1 B2]. apply Z.leb_le in B1. apply Z.ltb_lt in B2.
        pose proof (Oo j x Hj (not_eq_sym Nj)) as Nx.
        assert (Pg : exists e, w_vm (n_w (g_s (wp_g p))) ((addr_of x + i) / P) = Some e /\ p_obj e = obj_of x).
        { destruct x as [v|r0 o0]; cbn -[Z.mul Z.add] in *.
          - assert (C : 0 < m_ptr (v_map v) mod P + m_len (v_map v)) by (pose proof (Z.mod_pos_bound (m_ptr (v_map v)) P HP); lia).
            destruct (byte_entry (as_posix t) (posix_of t Ht) _ _ _ _ _ _ (mo_back _ _ _ T1 C) i ltac:(lia)) as (e & He & Eo & _). eauto.
          - destruct T1 as (n & T1). destruct (ring_byte t Ht _ _ _ _ i T1 ltac:(lia)) as (E1 & _ & Hn & _).
            destruct (ro_page _ _ _ _ _ T1 _ Hn) as (e & He & Eo & _). rewrite E1. eauto. }
        destruct Pg as (e & He & Eo). unfold load, page_byte. rewrite (oi_vm _ _ _ O), He, Eo. rewrite (oi_obj _ _ _ O) by exact Nx. reflexivity.
      + unfold reading, act_step. rewrite Eg. cbn [g_tab g_set]. rewrite Hj. reflexivity.
    - intros o' Ho'. apply (oi_obj _ _ _ O). intros ->. contradiction.
    - intros fd. rewrite (oi_fd _ _ _ O). reflexivity.
    - intros path. rewrite (oi_fs _ _ _ O). reflexivity.
    - rewrite Es. split; intros; cbn; rewrite ?(oi_vm _ _ _ O); reflexivity.
    - rewrite Es. reflexivity.
  Qed.

  (** ** Nothing left behind *)
  Lemma wp_tidy_history s p : wptidily t s p -> wpok t p /\ fresh_start s /\ exists hs, tidy_run t hs (holds_nothing s) /\ wp_g p = act_run t hs (holds_nothing s).
  Proof.
    induction 1 as [Fs|p c R IH Hc Td].
    - split; [apply wpstart_ok, Fs|]. split; [exact Fs|]. exists []. cbn. auto.
    - destruct IH as (K & Fs & h & Hh & E). destruct (wpstep_traced t Ht c p K Hc) as (hs & T).
      split; [exact (tr_pok _ _ _ _ _ T)|]. split; [exact Fs|]. exists (h ++ hs). rewrite (tidy_run_app t Ht), act_run_app, <- E.
      split; [split; [exact Hh|exact (tr_tidy _ _ _ _ _ T Td)]|exact (tr_run _ _ _ _ _ T)].
  Qed.
End Claims.
