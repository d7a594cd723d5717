(** Lemmas behind the properties of programs with maps and rings. *)
From Coq Require Import Lia.
From Verif Require Import Base Spec ErrorModel RingSpec RingModel SizeModel SizeProofs SeqProofs OsModel MapModel MapSpec OsProofs MapProofs MapCreate MapOps
  ApiModel ApiSpec ApiProofs RingMapModel RingMapSpec MirrorProofs RingMapClaims RingProofs IRingProofs RingWeak MemRingModel MemRingProofs
  ProcModel ProcSpec ProcFrame ProcProofs.

Lemma view_zeros n T : 0 < n -> view (mirror (fun _ => 0) n) T n = zeros n.
Proof.
  intros Hn. unfold view, zeros, mirror. generalize 0%nat. induction (Z.to_nat n) as [|k IH]; intros i; [reflexivity|].
  cbn [seq map repeat]. f_equal. apply IH.
Qed.

Section Claims.
  Variable t : target.
  Variable plat : platform.
  Hypothesis Ht : posix_target t.
  Notation P := (t_page t).
  Let Hg : good_target t := proj1 Ht.
  Let HP : 0 < P.
  Proof. exact (pow2_pos _ (proj1 (proj2 Hg))). Qed.
  Let HB : 32 <= t_bits t <= 64.
  Proof. destruct Hg as [[E|E] _]; lia. Qed.

  (** ** A call that is not made on ring [k] *)
  Lemma other_step c p k h n o m : pok t p -> pcall_ok t c -> pc_ring p k = Some h -> at_home t (pc_w p) h n o m ->
    (ring_subject c <> Some k \/ (exists i, c = PICall k i /\ forall s, h <> HInf s) \/ (exists i, c = PCall k i /\ forall s, h <> HRing s)) ->
    pc_ring (snd (pstep t plat c p)) k = Some h /\ at_home t (pc_w (snd (pstep t plat c p))) h n o m.
  Proof.
    intros K CO Hk H N. pose proof K as [A C R RR RM].
    assert (Kc : k <> pc_cnt p) by (intros ->; rewrite (C (pc_cnt p)) in Hk by lia; discriminate Hk).
    assert (New : forall mk hint clock, is_usize t hint -> pc_ring (snd (new_ring t plat mk hint clock p)) k = Some h /\
      at_home t (pc_w (snd (new_ring t plat mk hint clock p))) h n o m).
    { intros mk hint clock Hh. unfold new_ring. destruct (ring_new t plat clock hint (pc_w p)) as [r w'] eqn:E.
      pose proof (keeps_homes t plat Ht _ _ _ _ _ _ _ _ _ (ok_wf _ _ A) Hh E H) as K'.
      destruct r; cbn; (split; [|exact K']); try exact Hk. rewrite put_other by exact Kc. exact Hk. }
    assert (Call : forall k2 s s' w' n2 o2 m2, pc_ring p k2 = Some s -> k2 <> k -> at_home t (pc_w p) s n2 o2 m2 -> only_in o2 (pc_w p) w' ->
      pc_ring (pc_put p w' k2 (Some s')) k = Some h /\ at_home t (pc_w (pc_put p w' k2 (Some s'))) h n o m).
    { intros k2 s s' w' n2 o2 m2 H2 N2 Hm2 O. cbn [pc_put pc_ring]. rewrite put_other by auto. split; [exact Hk|].
      apply (home_kept_eq t Ht _ _ _ _ _ _ H).
      - apply (only_in_safe o2); [exact O|]. apply (homes_apart t Ht _ _ _ _ _ _ _ _ _ H Hm2). intros pg. exact (RR _ _ _ _ pg Hk H2 (not_eq_sym N2)).
      - intros. cbn. rewrite (oi_vm _ _ _ O). reflexivity. }
    destruct c as [c|hint clock|hint clock|k2 c|k2 c|k2]; cbn [pstep ring_subject] in *.
    - destruct (step t c (pc_a p)) as [r a'] eqn:E. cbn. split; [exact Hk|].
      apply (map_keeps t Ht c _ r a' h n o m A CO E H). intros k' l pg Hl Hp. exact (RM _ _ _ _ _ Hk Hl Hp).
    - apply New, CO.
    - apply New, CO.
    - destruct (pc_ring p k2) as [[s|s]|] eqn:Hk2; try (cbn; auto; fail).
      assert (N2 : k2 <> k).
      { intros ->. destruct N as [N|[(i & N & _)|(i & _ & N)]]; [congruence|discriminate N|]. apply (N s). congruence. }
      destruct (R _ _ Hk2) as (F2 & n2 & o2 & m2 & Hm2).
      destruct (kring_step t world (load t) (store t) c s (pc_w p)) as [r [s' w']] eqn:E. cbn [snd].
      destruct (ring_call t Ht _ _ _ _ _ _ _ _ _ Hm2 F2 CO E) as (_ & _ & O & _). exact (Call _ _ _ _ _ _ _ Hk2 N2 Hm2 O).
    - destruct (pc_ring p k2) as [[s|s]|] eqn:Hk2; try (cbn; auto; fail).
      assert (N2 : k2 <> k).
      { intros ->. destruct N as [N|[(i & _ & N)|(i & N & _)]]; [congruence| |discriminate N]. apply (N s). congruence. }
      destruct (R _ _ Hk2) as (F2 & n2 & o2 & m2 & Hm2).
      destruct (kiring_step t world (load t) (store t) c s (pc_w p)) as [r [s' w']] eqn:E. cbn [snd].
      destruct (inf_call t Ht _ _ _ _ _ _ _ _ _ Hm2 F2 CO E) as (_ & _ & O & _). exact (Call _ _ _ _ _ _ _ Hk2 N2 Hm2 O).
    - destruct (pc_ring p k2) as [h2|] eqn:Hk2; [|cbn; auto].
      assert (N2 : k2 <> k) by (destruct N as [N|[(i & N & _)|(i & N & _)]]; [congruence|discriminate N|discriminate N]).
      destruct (ring_drop t (h_alloc h2) (pc_w p)) as [r w'] eqn:E. destruct (R _ _ Hk2) as (F2 & n2 & o2 & m2 & Hm2).
      destruct (home_drop t Ht _ _ _ _ _ _ _ Hm2 E) as (_ & _ & _ & _ & _ & D).
      cbn [snd pc_put pc_ring]. rewrite put_other by auto. split; [exact Hk|]. apply (home_kept_eq t Ht _ _ _ _ _ _ H).
      + pose proof (safely_ring_drop t o (h_alloc h2) (pc_w p)) as S. rewrite E in S. exact S.
      + intros pg Hp. destruct D as [(_ & _ & D)|[_ D]]; [|cbn; rewrite D; reflexivity]. apply D. intros Hp2. exact (RR _ _ _ _ pg Hk Hk2 (not_eq_sym N2) Hp Hp2).
  Qed.

  (** ** Calls that must panic change nothing *)
  Lemma ring_panics s w m T R c : inv t (abs s m) T R -> rop_ok t c -> q_panics (absq (abs s m) T R) c ->
    kring_step t world (load t) (store t) c s w = (Panic, (s, w)).
  Proof.
    intros I Hc Q. pose proof (absq_free_len t HB _ _ _ I) as FL. pose proof (write_len_eq t HB _ _ _ I) as WL.
    change (ring_write_len t (abs s m)) with (kring_write_len t s) in WL.
    pose proof (inv_len _ _ _ _ I) as Hl. cbn [abs r_len] in *.
    destruct c; try (exfalso; exact Q); cbn [q_panics rop_ok] in *; rewrite FL in Q.
    - unfold kring_step, m_slice_store, as_write_slice, mbind, mout. cbn [kring_ops s_write_offset s_write_len s_ptr].
      unfold urem. rewrite (proj2 (Z.eqb_neq (k_len s) 0)) by lia. cbn [obind]. rewrite WL. cbn [obind].
      destruct (Z.leb_spec 0 i); cbn [andb]; [|reflexivity]. destruct (Z.leb_spec (i + zlen d) (Z.min (k_len s - (T - R)) max)); [|reflexivity].
      exfalso. apply Q. lia.
    - unfold kring_step, put_slice, mbind, mout. cbn [kring_ops s_write_len]. rewrite WL. rewrite (proj2 (Z.ltb_lt _ _) Q). reflexivity.
  Qed.
  Lemma inf_panics s w m T c : iinv t (iabs s m) T -> irop_args t c -> lq_panics (abst (iabs s m) T) c ->
    kiring_step t world (load t) (store t) c s w = (Panic, (s, w)).
  Proof.
    intros I Hc Q. pose proof (abst_tape_len t HB _ _ I) as FL. pose proof (ii_len _ _ _ I) as Hl. cbn [iabs i_len] in *.
    destruct c; try (exfalso; exact Q); cbn [lq_panics irop_args] in *; rewrite FL in Q.
    unfold kiring_step, m_slice_store, as_write_slice, mbind, mout. cbn [kiring_ops s_write_offset s_write_len s_ptr].
    unfold urem. rewrite (proj2 (Z.eqb_neq (ki_len s) 0)) by lia. cbn [obind].
    destruct (Z.leb_spec 0 i); cbn [andb]; [|reflexivity]. destruct (Z.leb_spec (i + zlen d) (Z.min (ki_len s) max)); [|reflexivity].
    exfalso. apply Q. lia.
  Qed.

  (** ** The answers of a ring are those of a queue, whatever else happens *)
  Lemma prun_cons c h p xs p2 : prun t plat (c :: h) p = (xs, p2) ->
    exists x xs', xs = x :: xs' /\ fst (pstep t plat c p) = x /\ prun t plat h (snd (pstep t plat c p)) = (xs', p2).
  Proof.
    cbn [prun]. destruct (pstep t plat c p) as [x p1]. destruct (prun t plat h p1) as [xs' p3] eqn:E. intros [= <- <-].
    exists x, xs'. auto.
  Qed.

  Lemma ring_history h : forall p xs p2 k s n o m T R acc, pok t p -> Forall (pcall_ok t) h -> prun t plat h p = (xs, p2) ->
    pc_ring p k = Some (HRing s) -> at_home t (pc_w p) (HRing s) n o m -> inv t (abs s m) T R -> T <= acc ->
    history_ok t acc (k_len s) (calls_on k h) ->
    q_answers (absq (abs s m) T R) (calls_on k h) (answers_on k h xs).
  Proof.
    induction h as [|c h IH]; intros p xs p2 k s n o m T R acc K F E Hk H I HT Ho.
    - injection E as <- <-. constructor.
    - apply Forall_cons_iff in F as [CO F]. apply prun_cons in E as (x & xs' & -> & Ex & E).
      pose proof (pstep_ok t plat Ht c p K CO) as K1.
      assert (Other : (ring_subject c <> Some k \/ exists i, c = PICall k i) -> ring_answer x = [] \/ ring_subject c <> Some k ->
        history_ok t acc (k_len s) (calls_on k h) -> q_answers (absq (abs s m) T R) (calls_on k h) (answers_on k h xs')).
      { intros N _ Ho'. destruct (other_step c p k _ n o m K CO Hk H) as [Hk1 H1].
        { destruct N as [N|(i & N)]; [left; exact N|right; left]. exists i. split; [exact N|discriminate]. }
        exact (IH _ _ _ _ _ _ _ _ _ _ _ K1 F E Hk1 H1 I HT Ho'). }
      destruct c as [c|hint clock|hint clock|k2 c|k2 c|k2]; cbn [calls_on answers_on] in *.
      + apply Other; auto; [left|right]; discriminate.
      + apply Other; auto; [left|right]; discriminate.
      + apply Other; auto; [left|right]; discriminate.
      + destruct (Z.eqb_spec k2 k) as [->|N]; [|apply Other; auto; [left|right]; cbn; congruence].
        cbn [history_ok] in Ho. destruct Ho as (Hc & Hpos & Ho). cbn [pstep] in *. rewrite Hk in *.
        destruct (pk_ring _ _ K _ _ Hk) as (Fs & _).
        pose proof (ring_call_spec t Ht s (pc_w p) n o m c H Fs Hc) as A. unfold agrees, agr in A.
        destruct (step_sim t HB (abs s m) T R c acc I HT Hc Hpos) as [[Q _]|[NQ (r' & y & T' & R' & Er & I' & HT' & Qs & El)]].
        * rewrite (ring_panics s (pc_w p) m T R c I Hc Q) in *. cbn [fst snd] in *. subst x. cbn [ring_answer app].
          apply qa_panic; [exact Q|].
          refine (IH _ _ _ _ s n o m T R (next_total acc (k_len s) c) K1 F E _ _ I _ Ho).
          -- cbn. apply put_same.
          -- destruct p as [[w0 lv cnt] rg pc]. exact H.
          -- destruct c; try (exfalso; exact Q); cbn; [lia|]. pose proof (zlen_nonneg b). pose proof (inv_len _ _ _ _ I). cbn in *. lia.
        * rewrite Er in A. destruct A as (s' & w' & Es & Eabs & Fs' & Rg & O). rewrite Es in *. cbn [fst snd] in *. subst x. cbn [ring_answer app].
          apply (qa_ok _ _ _ (absq r' T' R')); [exact NQ|exact Qs|]. pose proof Fs' as (E1 & E2 & _).
          rewrite Eabs in I' |- *. refine (IH _ _ _ _ s' n o (r_mem r') T' R' (next_total acc (k_len s) c) K1 F E _ _ I' HT' _).
          -- cbn. apply put_same.
          -- destruct H as [L R0 [Pv1 Pv2 Pv3] Lo Hi]. cbn [h_alloc ra_ptr ra_len] in *.
             split; cbn [h_alloc ra_ptr ra_len]; rewrite ?E1, ?E2; try assumption.
             split; cbn; [rewrite (oi_next _ _ _ O)|rewrite (oi_fd _ _ _ O)|rewrite (oi_fs _ _ _ O)]; assumption.
          -- rewrite E2. exact Ho.
      + destruct (Z.eqb_spec k2 k) as [->|N]; [|apply Other; auto; [left|right]; cbn; congruence].
        assert (X : ring_answer x = []) by (cbn [pstep] in Ex; rewrite Hk in Ex; subst x; reflexivity). rewrite X. cbn [app].
        apply Other; eauto.
      + destruct (Z.eqb_spec k2 k) as [->|N]; [constructor|apply Other; auto; [left|right]; cbn; congruence].
  Qed.

  Lemma inf_history h : forall p xs p2 k s n o m T acc, pok t p -> Forall (pcall_ok t) h -> prun t plat h p = (xs, p2) ->
    pc_ring p k = Some (HInf s) -> at_home t (pc_w p) (HInf s) n o m -> iinv t (iabs s m) T -> T <= acc ->
    ihistory_ok t acc (ki_len s) (icalls_on k h) ->
    lq_answers (abst (iabs s m) T) (icalls_on k h) (answers_on k h xs).
  Proof.
    induction h as [|c h IH]; intros p xs p2 k s n o m T acc K F E Hk H I HT Ho.
    - injection E as <- <-. constructor.
    - apply Forall_cons_iff in F as [CO F]. apply prun_cons in E as (x & xs' & -> & Ex & E).
      pose proof (pstep_ok t plat Ht c p K CO) as K1.
      assert (Other : (ring_subject c <> Some k \/ exists i, c = PCall k i) ->
        ihistory_ok t acc (ki_len s) (icalls_on k h) -> lq_answers (abst (iabs s m) T) (icalls_on k h) (answers_on k h xs')).
      { intros N Ho'. destruct (other_step c p k _ n o m K CO Hk H) as [Hk1 H1].
        { destruct N as [N|(i & N)]; [left; exact N|right; right]. exists i. split; [exact N|discriminate]. }
        exact (IH _ _ _ _ _ _ _ _ _ _ K1 F E Hk1 H1 I HT Ho'). }
      destruct c as [c|hint clock|hint clock|k2 c|k2 c|k2]; cbn [icalls_on answers_on] in *.
      + apply Other; auto; left; discriminate.
      + apply Other; auto; left; discriminate.
      + apply Other; auto; left; discriminate.
      + destruct (Z.eqb_spec k2 k) as [->|N]; [|apply Other; auto; left; cbn; congruence].
        assert (X : ring_answer x = []) by (cbn [pstep] in Ex; rewrite Hk in Ex; subst x; reflexivity). rewrite X. cbn [app].
        apply Other; eauto.
      + destruct (Z.eqb_spec k2 k) as [->|N]; [|apply Other; auto; left; cbn; congruence].
        cbn [ihistory_ok] in Ho. destruct Ho as (Hc & Hpos & Ho). cbn [pstep] in *. rewrite Hk in *.
        destruct (pk_ring _ _ K _ _ Hk) as (Fs & _).
        pose proof (inf_call_spec t Ht s (pc_w p) n o m c H Fs CO) as A. unfold iagrees, agr in A.
        destruct (istep_sim t HB (iabs s m) T c acc I HT Hc Hpos) as [[Q _]|[NQ (r' & y & T' & Er & I' & HT' & Qs & El)]].
        * rewrite (inf_panics s (pc_w p) m T c I CO Q) in *. cbn [fst snd] in *. subst x. cbn [ring_answer app].
          apply la_panic; [exact Q|].
          refine (IH _ _ _ _ s n o m T (acc + irop_weight (ki_len s) c) K1 F E _ _ I _ Ho).
          -- cbn. apply put_same.
          -- destruct p as [[w0 lv cnt] rg pc]. exact H.
          -- destruct c; try (exfalso; exact Q); cbn; lia.
        * rewrite Er in A. destruct A as (s' & w' & Es & Eabs & Fs' & Rg & O). rewrite Es in *. cbn [fst snd] in *. subst x. cbn [ring_answer app].
          apply (la_ok _ _ _ (abst r' T')); [exact NQ|exact Qs|]. pose proof Fs' as (E1 & E2 & _).
          rewrite Eabs in I' |- *. refine (IH _ _ _ _ s' n o (i_mem r') T' (acc + irop_weight (ki_len s) c) K1 F E _ _ I' HT' _).
          -- cbn. apply put_same.
          -- destruct H as [L R0 [Pv1 Pv2 Pv3] Lo Hi]. cbn [h_alloc ra_ptr ra_len] in *.
             split; cbn [h_alloc ra_ptr ra_len]; rewrite ?E1, ?E2; try assumption.
             split; cbn; [rewrite (oi_next _ _ _ O)|rewrite (oi_fd _ _ _ O)|rewrite (oi_fs _ _ _ O)]; assumption.
          -- rewrite E2. exact Ho.
      + destruct (Z.eqb_spec k2 k) as [->|N]; [constructor|apply Other; auto; left; cbn; congruence].
  Qed.

  Lemma new_inv mk hint clock p k p1 : pok t p -> is_usize t hint -> (forall pg len, h_alloc (mk pg len) = {| ra_ptr := pg; ra_len := len |}) ->
    new_ring t plat mk hint clock p = (ANew (Ret k), p1) ->
    exists pg cap n o, is_ceil (t_alloc t) hint cap /\ 0 < cap /\ 2 * cap < 2 ^ t_bits t /\
      pc_ring p1 k = Some (mk pg cap) /\ at_home t (pc_w p1) (mk pg cap) n o (fun _ => 0).
  Proof.
    intros K Hh M E. unfold new_ring in E. destruct (ring_new t plat clock hint (pc_w p)) as [r w'] eqn:En.
    destruct r as [a|e| | |]; try discriminate E. injection E as <- <-.
    assert (Ea : h_alloc (mk (ra_ptr a) (ra_len a)) = a) by (rewrite M; destruct a; reflexivity).
    destruct (new_home t plat Ht _ _ _ _ _ _ (ok_wf _ _ (pk_api _ _ K)) Hh En Ea) as (IC & L1 & L2 & _ & _ & n & H).
    exists (ra_ptr a), (ra_len a), n, (w_next (pc_w p)). do 3 (split; [assumption|]). split; [apply put_same|exact H].
  Qed.

  Theorem ring_end_to_end p hint clock k p1 h xs p2 : preached t plat p -> is_usize t hint ->
    pstep t plat (PRing hint clock) p = (ANew (Ret k), p1) -> Forall (pcall_ok t) h -> prun t plat h p1 = (xs, p2) ->
    exists cap, is_ceil (t_alloc t) hint cap /\
      (history_ok t 0 cap (calls_on k h) ->
       q_answers {| q_data := []; q_free := zeros cap |} (calls_on k h) (answers_on k h xs)).
  Proof.
    intros Rp Hh E F Er. pose proof (preached_ok t plat Ht p Rp) as K.
    pose proof (pstep_ok t plat Ht (PRing hint clock) p K Hh) as K1. rewrite E in K1. cbn [snd] in K1. cbn [pstep] in E.
    destruct (new_inv (fun ptr len => HRing (kring_new ptr len)) _ _ _ _ _ K Hh (fun _ _ => eq_refl) E) as (pg & cap & n & o & IC & L1 & L2 & Hk & H).
    exists cap. split; [exact IC|]. intros Ho.
    pose proof (make_inv t HB cap (fun _ => 0) L1 ltac:(lia)) as I.
    replace {| q_data := []; q_free := zeros cap |} with (absq (abs (kring_new pg cap) (fun _ => 0)) 0 0).
    - exact (ring_history h p1 xs p2 k (kring_new pg cap) n o _ 0 0 0 K1 F Er Hk H I ltac:(lia) Ho).
    - unfold absq. cbn [abs kring_new r_mem r_len k_len]. rewrite !Z.sub_0_r. rewrite view_zeros by exact L1. reflexivity.
  Qed.
  Theorem inf_end_to_end p hint clock k p1 h xs p2 : preached t plat p -> is_usize t hint ->
    pstep t plat (PInf hint clock) p = (ANew (Ret k), p1) -> Forall (pcall_ok t) h -> prun t plat h p1 = (xs, p2) ->
    exists cap, is_ceil (t_alloc t) hint cap /\
      (ihistory_ok t 0 cap (icalls_on k h) ->
       lq_answers {| lq_tape := zeros cap; lq_len := 0 |} (icalls_on k h) (answers_on k h xs)).
  Proof.
    intros Rp Hh E F Er. pose proof (preached_ok t plat Ht p Rp) as K.
    pose proof (pstep_ok t plat Ht (PInf hint clock) p K Hh) as K1. rewrite E in K1. cbn [snd] in K1. cbn [pstep] in E.
    destruct (new_inv (fun ptr len => HInf (kiring_new ptr len)) _ _ _ _ _ K Hh (fun _ _ => eq_refl) E) as (pg & cap & n & o & IC & L1 & L2 & Hk & H).
    exists cap. split; [exact IC|]. intros Ho.
    pose proof (imake_inv t HB cap (fun _ => 0) L1 L2) as I.
    replace {| lq_tape := zeros cap; lq_len := 0 |} with (abst (iabs (kiring_new pg cap) (fun _ => 0)) 0).
    - exact (inf_history h p1 xs p2 k (kiring_new pg cap) n o _ 0 0 K1 F Er Hk H I ltac:(lia) Ho).
    - unfold abst. cbn [iabs kiring_new i_mem i_len i_rlen ki_len ki_rlen]. rewrite view_zeros by exact L1. reflexivity.
  Qed.

  (** ** Who can touch what *)
  Lemma ring_addr_page w h n o m a : at_home t w h n o m -> ring_addr h a -> ring_page t h (a / P).
  Proof.
    intros H Ha. apply (page_iff t Ht _ _ _ _ _ _ H). unfold ring_addr in Ha. pose proof H as [L R _ _ _]. rewrite L in Ha.
    apply (page_in t Hg _ _ a (rg_n _ _ _ _ _ _ R) (rg_align _ _ _ _ _ _ R)). exact Ha.
  Qed.
  Lemma page_addr w h n o m a : at_home t w h n o m -> ring_page t h (a / P) -> ring_addr h a.
  Proof.
    intros H Ha. apply (page_iff t Ht _ _ _ _ _ _ H) in Ha. unfold ring_addr. pose proof H as [L R _ _ _]. rewrite L.
    apply (page_in t Hg _ _ a (rg_n _ _ _ _ _ _ R) (rg_align _ _ _ _ _ _ R)). exact Ha.
  Qed.
  Lemma map_addr_page l a : map_addr l a -> own_page t (l_map l) (a / P).
  Proof.
    unfold map_addr, own_page, first_page, page_count. intros Ha. pose proof (npages_bounds t HP (m_ptr (l_map l) mod P + m_len (l_map l))) as N.
    pose proof (Z.div_mod (m_ptr (l_map l)) P ltac:(lia)) as D. split; [apply Z.div_le_mono; lia|].
    apply Z.div_lt_upper_bound; [lia|]. nia.
  Qed.

  Lemma pok_apart p : pok t p ->
    (forall k1 k2 h1 h2 a, pc_ring p k1 = Some h1 -> pc_ring p k2 = Some h2 -> k1 <> k2 -> ring_addr h1 a -> ring_addr h2 a -> False) /\
    (forall k h k' l a, pc_ring p k = Some h -> a_live (pc_a p) k' = Some l -> ring_addr h a -> map_addr l a -> False) /\
    (forall k1 k2 l1 l2 a, a_live (pc_a p) k1 = Some l1 -> a_live (pc_a p) k2 = Some l2 -> k1 <> k2 -> map_addr l1 a -> map_addr l2 a -> False).
  Proof.
    intros [A C R RR RM]. split; [|split].
    - intros k1 k2 h1 h2 a H1 H2 N A1 A2. destruct (R _ _ H1) as (_ & n1 & o1 & m1 & Hm1). destruct (R _ _ H2) as (_ & n2 & o2 & m2 & Hm2).
      exact (RR _ _ _ _ (a / P) H1 H2 N (ring_addr_page _ _ _ _ _ _ Hm1 A1) (ring_addr_page _ _ _ _ _ _ Hm2 A2)).
    - intros k h k' l a H Hl A1 A2. destruct (R _ _ H) as (_ & n & o & m & Hm).
      exact (RM _ _ _ _ (a / P) H Hl (ring_addr_page _ _ _ _ _ _ Hm A1) (map_addr_page _ _ A2)).
    - intros k1 k2 l1 l2 a H1 H2 N A1 A2. exact (ok_apart _ _ A _ _ _ _ (a / P) H1 H2 N (map_addr_page _ _ A1) (map_addr_page _ _ A2)).
  Qed.

  Lemma load_same w w' a : w_vm w' (a / P) = w_vm w (a / P) ->
    (forall e, w_vm w (a / P) = Some e -> w_obj w' (p_obj e) = w_obj w (p_obj e)) -> load (E:=error) t w' a = load t w a.
  Proof.
    intros V O. unfold load. rewrite V. destruct (w_vm w (a / P)) as [e|] eqn:E; [|reflexivity]. unfold page_byte. rewrite (O e eq_refl). reflexivity.
  Qed.

  Lemma pok_local p c x p' a : pok t p -> pcall_ok t c -> (forall c', c <> PMap c') -> pstep t plat c p = (x, p') ->
    (forall k h, ring_subject c = Some k -> pc_ring p k = Some h -> ~ ring_addr h a) -> load (E:=error) t (pc_w p) a <> Fault ->
    load (E:=error) t (pc_w p') a = load t (pc_w p) a.
  Proof.
    intros K CO NM E N F. pose proof K as [A C R RR RM].
    assert (Me : exists e, w_vm (pc_w p) (a / P) = Some e).
    { unfold load in F. destruct (w_vm (pc_w p) (a / P)) as [e|]; [eauto|congruence]. }
    destruct Me as (e & He).
    assert (New : forall mk hint clock, is_usize t hint -> new_ring t plat mk hint clock p = (x, p') ->
      load (E:=error) t (pc_w p') a = load t (pc_w p) a).
    { intros mk hint clock Hh En. unfold new_ring in En. destruct (ring_new t plat clock hint (pc_w p)) as [r w'] eqn:Er.
      assert (W' : pc_w p' = w') by (destruct r; injection En as _ <-; reflexivity). rewrite W'.
      apply load_same; [rewrite He; exact (ring_new_vm t plat Ht _ _ _ _ _ (ok_wf _ _ A) Hh Er _ _ He)|].
      intros e' He'. pose proof (wf_vm _ (ok_wf _ _ A) _ _ He') as Ho.
      destruct (ring_new_spec t Hg plat clock hint _ _ _ (ok_wf _ _ A) Hh Er) as [_ S]. destruct r as [b|y| | |]; try contradiction S.
      - destruct S as [_ S]. apply (al_obj _ _ _ _ _ _ S), Ho.
      - apply S, Ho.
      - destruct S as [Q _]. rewrite (q_obj _ _ Q). reflexivity. }
    assert (Call : forall k h n o m w', pc_ring p k = Some h -> ring_subject c = Some k -> at_home t (pc_w p) h n o m -> only_in o (pc_w p) w' ->
      load (E:=error) t w' a = load t (pc_w p) a).
    { intros k h n o m w' Hk Sc H O. apply load_same; [rewrite (oi_vm _ _ _ O); reflexivity|]. intros e' He'. apply (oi_obj _ _ _ O).
      intros Eo. apply (N k h Sc Hk). exact (page_addr _ _ _ _ _ _ H (home_only t Ht _ _ _ _ _ _ _ H He' Eo)). }
    destruct c as [c|hint clock|hint clock|k c|k c|k]; cbn [pstep ring_subject] in *.
    - destruct (NM c eq_refl).
    - exact (New _ _ _ CO E).
    - exact (New _ _ _ CO E).
    - destruct (pc_ring p k) as [[s|s]|] eqn:Hk; try (injection E as _ <-; reflexivity).
      destruct (kring_step t world (load t) (store t) c s (pc_w p)) as [r [s' w']] eqn:Es. injection E as _ <-.
      destruct (R _ _ Hk) as (Fs & n & o & m & H). destruct (ring_call t Ht _ _ _ _ _ _ _ _ _ H Fs CO Es) as (_ & _ & O & _).
      exact (Call _ _ _ _ _ _ Hk eq_refl H O).
    - destruct (pc_ring p k) as [[s|s]|] eqn:Hk; try (injection E as _ <-; reflexivity).
      destruct (kiring_step t world (load t) (store t) c s (pc_w p)) as [r [s' w']] eqn:Es. injection E as _ <-.
      destruct (R _ _ Hk) as (Fs & n & o & m & H). destruct (inf_call t Ht _ _ _ _ _ _ _ _ _ H Fs CO Es) as (_ & _ & O & _).
      exact (Call _ _ _ _ _ _ Hk eq_refl H O).
    - destruct (pc_ring p k) as [h|] eqn:Hk; [|injection E as _ <-; reflexivity].
      destruct (ring_drop t (h_alloc h) (pc_w p)) as [r w'] eqn:Ed. injection E as _ <-. destruct (R _ _ Hk) as (Fs & n & o & m & H).
      destruct (home_drop t Ht _ _ _ _ _ _ _ H Ed) as (_ & O & _ & _ & _ & D).
      change (load (E:=error) t w' a = load t (pc_w p) a).
      apply load_same; [|intros; rewrite O; reflexivity]. destruct D as [(_ & _ & D)|[_ D]]; [|rewrite D; reflexivity].
      apply D. intros Hp. exact (N k h eq_refl Hk (page_addr _ _ _ _ _ _ H Hp)).
  Qed.

  (** Calls on rings never fault, whatever was done to them before. *)
  Lemma pok_safe p c r p' : pok t p -> pcall_ok t c -> pstep t plat c p = (ARing r, p') -> r = Panic \/ exists y, r = Ret y.
  Proof.
    intros [A C R RR RM] CO E.
    destruct c as [c|hint clock|hint clock|k c|k c|k]; cbn [pstep] in *.
    - destruct (step t c (pc_a p)). discriminate E.
    - unfold new_ring in E. destruct (ring_new t plat clock hint (pc_w p)) as [[]]; discriminate E.
    - unfold new_ring in E. destruct (ring_new t plat clock hint (pc_w p)) as [[]]; discriminate E.
    - destruct (pc_ring p k) as [[s|s]|] eqn:Hk; try discriminate E. destruct (R _ _ Hk) as (Fs & n & o & m & H).
      pose proof (ring_call_spec t Ht s (pc_w p) n o m c H Fs CO) as G. unfold agrees, agr in G.
      destruct (kring_step t world (load t) (store t) c s (pc_w p)) as [r1 [s' w']]. injection E as <- <-.
      destruct (ring_step t (abs s m) c) as [[r2 y]|e| | |]; try contradiction G.
      + destruct G as (? & ? & [= -> -> ->] & _). eauto.
      + destruct G as (? & ? & ? & [= -> -> ->] & _). auto.
    - destruct (pc_ring p k) as [[s|s]|] eqn:Hk; try discriminate E. destruct (R _ _ Hk) as (Fs & n & o & m & H).
      pose proof (inf_call_spec t Ht s (pc_w p) n o m c H Fs CO) as G. unfold iagrees, agr in G.
      destruct (kiring_step t world (load t) (store t) c s (pc_w p)) as [r1 [s' w']]. injection E as <- <-.
      destruct (iring_step t (iabs s m) c) as [[r2 y]|e| | |]; try contradiction G.
      + destruct G as (? & ? & [= -> -> ->] & _). eauto.
      + destruct G as (? & ? & ? & [= -> -> ->] & _). auto.
    - destruct (pc_ring p k); [|discriminate E]. destruct (ring_drop t _ (pc_w p)). discriminate E.
  Qed.

  (** A ring's contents are changed by its own calls only. *)
  Lemma ring_kept hs : forall p xs p' k h, pok t p -> Forall (pcall_ok t) hs -> Forall (fun c => ring_subject c <> Some k) hs ->
    pc_ring p k = Some h -> prun t plat hs p = (xs, p') ->
    pc_ring p' k = Some h /\ forall a, ring_addr h a -> load (E:=error) t (pc_w p') a = load t (pc_w p) a.
  Proof.
    induction hs as [|c hs IH]; intros p xs p' k h K CO N Hk E.
    - injection E as <- <-. auto.
    - apply Forall_cons_iff in CO as [CO COs]. apply Forall_cons_iff in N as [N Ns]. apply prun_cons in E as (x & xs' & -> & Ex & E).
      pose proof (pstep_ok t plat Ht c p K CO) as K1. destruct (pk_ring _ _ K _ _ Hk) as (_ & n & o & m & H).
      destruct (other_step c p k h n o m K CO Hk H (or_introl N)) as [Hk1 H1].
      destruct (IH _ _ _ _ _ K1 COs Ns Hk1 E) as [E1 E2]. split; [exact E1|]. intros a Ha. rewrite (E2 a Ha).
      pose proof (hm_len _ _ _ _ _ _ H) as L. unfold ring_addr in Ha. rewrite L in Ha.
      replace a with (ra_ptr (h_alloc h) + (a - ra_ptr (h_alloc h))) by lia.
      rewrite (ring_load t Hg _ _ _ _ _ (a - ra_ptr (h_alloc h)) (hm_ring _ _ _ _ _ _ H) ltac:(lia)).
      rewrite (ring_load t Hg _ _ _ _ _ (a - ra_ptr (h_alloc h)) (hm_ring _ _ _ _ _ _ H1) ltac:(lia)). reflexivity.
  Qed.

  (** Files are untouched by rings. *)
  Lemma pok_files p c x p' path : pok t p -> pcall_ok t c -> (forall c', c <> PMap c') -> pstep t plat c p = (x, p') -> 0 <= path ->
    w_fs (pc_w p') path = w_fs (pc_w p) path /\
    (forall o, w_fs (pc_w p) path = Some o -> w_obj (pc_w p') o = w_obj (pc_w p) o) /\
    (forall fd, w_fd (pc_w p') fd = w_fd (pc_w p) fd) /\ a_live (pc_a p') = a_live (pc_a p).
  Proof.
    intros K CO NM E Hp. pose proof K as [A C R RR RM]. pose proof (ok_wf _ _ A) as W.
    assert (New : forall mk hint clock, is_usize t hint -> new_ring t plat mk hint clock p = (x, p') ->
      w_fs (pc_w p') path = w_fs (pc_w p) path /\ (forall o, w_fs (pc_w p) path = Some o -> w_obj (pc_w p') o = w_obj (pc_w p) o) /\
      (forall fd, w_fd (pc_w p') fd = w_fd (pc_w p) fd) /\ a_live (pc_a p') = a_live (pc_a p)).
    { intros mk hint clock Hh En. unfold new_ring in En. destruct (ring_new t plat clock hint (pc_w p)) as [r w'] eqn:Er.
      assert (W' : pc_w p' = w') by (destruct r; injection En as _ <-; reflexivity). rewrite W'.
      split; [|split; [|split]].
      - destruct (ring_new_wf t plat Ht clock hint (pc_w p) Hh W) as [_ Fs]. rewrite Er in Fs. exact (Fs path Hp).
      - intros o Ho. apply (wf_fs _ W) in Ho.
        destruct (ring_new_spec t Hg plat clock hint _ _ _ W Hh Er) as [_ S]. destruct r as [b|y| | |]; try contradiction S.
        + destruct S as [_ S]. apply (al_obj _ _ _ _ _ _ S), Ho.
        + apply S, Ho.
        + destruct S as [Q _]. rewrite (q_obj _ _ Q). reflexivity.
      - intros fd. destruct (ring_new_spec t Hg plat clock hint _ _ _ W Hh Er) as [_ S]. destruct r as [b|y| | |]; try contradiction S.
        + destruct S as [_ S]. apply (al_fd _ _ _ _ _ _ S).
        + apply S.
        + destruct S as [Q _]. rewrite (q_fd _ _ Q). reflexivity.
      - destruct r; injection En as _ <-; reflexivity. }
    assert (Call : forall k h n o m w', pc_ring p k = Some h -> at_home t (pc_w p) h n o m -> only_in o (pc_w p) w' ->
      w_fs w' path = w_fs (pc_w p) path /\ (forall o, w_fs (pc_w p) path = Some o -> w_obj w' o = w_obj (pc_w p) o) /\
      (forall fd, w_fd w' fd = w_fd (pc_w p) fd)).
    { intros k h n o m w' Hk H O. split; [rewrite (oi_fs _ _ _ O); reflexivity|]. split; [|rewrite (oi_fd _ _ _ O); reflexivity].
      intros o' Ho. apply (oi_obj _ _ _ O). intros ->. exact (pv_fs _ _ (hm_priv _ _ _ _ _ _ H) path Hp Ho). }
    destruct c as [c|hint clock|hint clock|k c|k c|k]; cbn [pstep] in *.
    - destruct (NM c eq_refl).
    - exact (New _ _ _ CO E).
    - exact (New _ _ _ CO E).
    - destruct (pc_ring p k) as [[s|s]|] eqn:Hk; try (injection E as _ <-; auto; fail).
      destruct (kring_step t world (load t) (store t) c s (pc_w p)) as [r [s' w']] eqn:Es. injection E as _ <-.
      destruct (R _ _ Hk) as (Fs & n & o & m & H). destruct (ring_call t Ht _ _ _ _ _ _ _ _ _ H Fs CO Es) as (_ & _ & O & _).
      destruct (Call _ _ _ _ _ _ Hk H O) as (X1 & X2 & X3). auto.
    - destruct (pc_ring p k) as [[s|s]|] eqn:Hk; try (injection E as _ <-; auto; fail).
      destruct (kiring_step t world (load t) (store t) c s (pc_w p)) as [r [s' w']] eqn:Es. injection E as _ <-.
      destruct (R _ _ Hk) as (Fs & n & o & m & H). destruct (inf_call t Ht _ _ _ _ _ _ _ _ _ H Fs CO Es) as (_ & _ & O & _).
      destruct (Call _ _ _ _ _ _ Hk H O) as (X1 & X2 & X3). auto.
    - destruct (pc_ring p k) as [h|] eqn:Hk; [|injection E as _ <-; auto].
      destruct (ring_drop t (h_alloc h) (pc_w p)) as [r w'] eqn:Ed. injection E as _ <-. destruct (R _ _ Hk) as (Fs & n & o & m & H).
      destruct (home_drop t Ht _ _ _ _ _ _ _ H Ed) as (_ & O & _ & F & S & _).
      change (w_fs w' path = w_fs (pc_w p) path /\ (forall o, w_fs (pc_w p) path = Some o -> w_obj w' o = w_obj (pc_w p) o) /\
        (forall fd, w_fd w' fd = w_fd (pc_w p) fd) /\ a_live (pc_a p) = a_live (pc_a p)). rewrite O, F, S. auto.
  Qed.

  (** In the states of programs. *)
  Lemma apart p : preached t plat p ->
    (forall k1 k2 h1 h2 a, pc_ring p k1 = Some h1 -> pc_ring p k2 = Some h2 -> k1 <> k2 -> ring_addr h1 a -> ring_addr h2 a -> False) /\
    (forall k h k' l a, pc_ring p k = Some h -> a_live (pc_a p) k' = Some l -> ring_addr h a -> map_addr l a -> False) /\
    (forall k1 k2 l1 l2 a, a_live (pc_a p) k1 = Some l1 -> a_live (pc_a p) k2 = Some l2 -> k1 <> k2 -> map_addr l1 a -> map_addr l2 a -> False).
  Proof. intros Rp. exact (pok_apart p (preached_ok t plat Ht p Rp)). Qed.
  Lemma ring_calls_local p c x p' a : preached t plat p -> pcall_ok t c -> (forall c', c <> PMap c') -> pstep t plat c p = (x, p') ->
    (forall k h, ring_subject c = Some k -> pc_ring p k = Some h -> ~ ring_addr h a) -> load (E:=error) t (pc_w p) a <> Fault ->
    load (E:=error) t (pc_w p') a = load t (pc_w p) a.
  Proof. intros Rp. exact (pok_local p c x p' a (preached_ok t plat Ht p Rp)). Qed.
  Lemma ring_calls_safe p c r p' : preached t plat p -> pcall_ok t c -> pstep t plat c p = (ARing r, p') -> r = Panic \/ exists y, r = Ret y.
  Proof. intros Rp. exact (pok_safe p c r p' (preached_ok t plat Ht p Rp)). Qed.
  Lemma ring_calls_files p c x p' path : preached t plat p -> pcall_ok t c -> (forall c', c <> PMap c') -> pstep t plat c p = (x, p') -> 0 <= path ->
    w_fs (pc_w p') path = w_fs (pc_w p) path /\
    (forall o, w_fs (pc_w p) path = Some o -> w_obj (pc_w p') o = w_obj (pc_w p) o) /\
    (forall fd, w_fd (pc_w p') fd = w_fd (pc_w p) fd) /\ a_live (pc_a p') = a_live (pc_a p).
  Proof. intros Rp. exact (pok_files p c x p' path (preached_ok t plat Ht p Rp)). Qed.
End Claims.
