(** Lemmas behind the properties of programs with maps and rings on macOS and
    iOS. *)
From Coq Require Import Lia.
From Verif Require Import Base Spec ErrorModel RingSpec RingModel SizeModel SizeProofs SeqProofs OsModel MapModel MapSpec OsProofs MapProofs MapCreate MapOps
  ApiModel ApiSpec ApiProofs RingMapModel RingMapSpec MirrorProofs RingMapClaims RingProofs IRingProofs RingWeak MemRingModel MemRingProofs
  ProcModel ProcSpec ProcFrame ProcProofs ProcClaims ProcPages MachModel MachSpec MachProofs MachClaims MachProcModel MachProcSpec MachProcProofs.

Section Claims.
  Variable t : target.
  Hypothesis Ht : posix_target t.
  Notation P := (t_page t).
  Let Hg : good_target t := proj1 Ht.
  Let HP : 0 < P.
  Proof. exact (pow2_pos _ (proj1 (proj2 Hg))). Qed.
  Let HB : 32 <= t_bits t <= 64.
  Proof. destruct Hg as [[E|E] _]; lia. Qed.

  (** ** A call that is not made on ring [k] *)
  Lemma mother_step c p k h n o m : pok t (mp_p p) -> mcall_ok t c -> pc_ring (mp_p p) k = Some h -> at_home t (pc_w (mp_p p)) h n o m ->
    (ring_subject c <> Some k \/ (exists i, c = PICall k i /\ forall s, h <> HInf s) \/ (exists i, c = PCall k i /\ forall s, h <> HRing s)) ->
    pc_ring (mp_p (snd (mstep t c p))) k = Some h /\ at_home t (pc_w (mp_p (snd (mstep t c p)))) h n o m.
  Proof.
    intros K [CO Hh] Hk H N. pose proof K as [A C R RR RM].
    assert (Kc : k <> pc_cnt (mp_p p)) by (intros ->; rewrite (C (pc_cnt (mp_p p))) in Hk by lia; discriminate Hk).
    assert (New : forall mk hint, hint_ok t hint -> pc_ring (mp_p (snd (mach_new t mk hint p))) k = Some h /\
      at_home t (pc_w (mp_p (snd (mach_new t mk hint p)))) h n o m).
    { intros mk hint Hi. unfold mach_new. destruct (mach_ring_new t hint (mp_mach p)) as [r s'] eqn:E.
      pose proof (kept_home t Ht _ _ _ _ _ _ (mach_new_keeps t Ht _ _ _ _ Hi E) H) as K'.
      destruct r; cbn; (split; [|exact K']); try exact Hk. rewrite put_other by exact Kc. exact Hk. }
    assert (Same : (match c with PMap _ | PCall _ _ | PICall _ _ => True | _ => False end) ->
      pc_ring (mp_p (snd (mstep t c p))) k = Some h /\ at_home t (pc_w (mp_p (snd (mstep t c p)))) h n o m).
    { intros Sc. rewrite same_step by exact Sc. exact (other_step t Anonymous Ht c (mp_p p) k h n o m K CO Hk H N). }
    destruct c as [c|hint clock|hint clock|k2 c|k2 c|k2]; try (apply Same; exact Logic.I).
    - apply New. split; assumption.
    - apply New. split; assumption.
    - cbn [mstep ring_subject] in *. destruct (pc_ring (mp_p p) k2) as [h2|] eqn:Hk2; [|cbn; auto].
      assert (N2 : k2 <> k) by (destruct N as [N|[(i & N & _)|(i & N & _)]]; [congruence|discriminate N|discriminate N]).
      destruct (mach_ring_drop t (h_alloc h2) (mp_mach p)) as [r s'] eqn:E. destruct (R _ _ Hk2) as (F2 & n2 & o2 & m2 & Hm2).
      destruct (mach_home_drop t Ht (mp_mach p) _ _ _ _ _ _ Hm2 E) as (_ & _ & E1 & E2 & E3 & E4 & D).
      pose proof (drop_less t Ht (mp_mach p) _ _ _ _ _ _ Hm2 E) as Ls.
      cbn [snd mp_p pc_put pc_ring]. rewrite put_other by auto. split; [exact Hk|]. apply (home_kept_eq t Ht _ _ _ _ _ _ H).
      + exact (less_safe _ _ o E1 E2 E3 E4 Ls).
      + intros pg Hp. destruct D as [[_ D]|[_ D]]; [|exact (f_equal (fun f => f pg) D)]. apply D. intros Hp2. exact (RR _ _ _ _ pg Hk Hk2 (not_eq_sym N2) Hp Hp2).
  Qed.

  (** ** The answers of a ring are those of a queue, whatever else happens *)
  Lemma mrun_cons c h p xs p2 : mrun t (c :: h) p = (xs, p2) ->
    exists x xs', xs = x :: xs' /\ fst (mstep t c p) = x /\ mrun t h (snd (mstep t c p)) = (xs', p2).
  Proof.
    cbn [mrun]. destruct (mstep t c p) as [x p1]. destruct (mrun t h p1) as [xs' p3] eqn:E. intros [= <- <-].
    exists x, xs'. auto.
  Qed.

  Lemma mring_history h : forall p xs p2 k s n o m T R acc, pok t (mp_p p) -> Forall (mcall_ok t) h -> mrun t h p = (xs, p2) ->
    pc_ring (mp_p p) k = Some (HRing s) -> at_home t (pc_w (mp_p p)) (HRing s) n o m -> inv t (abs s m) T R -> T <= acc ->
    history_ok t acc (k_len s) (calls_on k h) ->
    q_answers (absq (abs s m) T R) (calls_on k h) (answers_on k h xs).
  Proof.
    induction h as [|c h IH]; intros p xs p2 k s n o m T R acc K F E Hk H I HT Ho.
    - injection E as <- <-. constructor.
    - apply Forall_cons_iff in F as [CO F]. apply mrun_cons in E as (x & xs' & -> & Ex & E).
      pose proof (mstep_ok t Ht c p K CO) as K1.
      assert (Other : (ring_subject c <> Some k \/ exists i, c = PICall k i) -> ring_answer x = [] \/ ring_subject c <> Some k ->
        history_ok t acc (k_len s) (calls_on k h) -> q_answers (absq (abs s m) T R) (calls_on k h) (answers_on k h xs')).
      { intros N _ Ho'. destruct (mother_step c p k _ n o m K CO Hk H) as [Hk1 H1].
        { destruct N as [N|(i & N)]; [left; exact N|right; left]. exists i. split; [exact N|discriminate]. }
        exact (IH _ _ _ _ _ _ _ _ _ _ _ K1 F E Hk1 H1 I HT Ho'). }
      destruct c as [c|hint clock|hint clock|k2 c|k2 c|k2]; cbn [calls_on answers_on] in *.
      + apply Other; auto; [left|right]; discriminate.
      + apply Other; auto; [left|right]; discriminate.
      + apply Other; auto; [left|right]; discriminate.
      + destruct (Z.eqb_spec k2 k) as [->|N]; [|apply Other; auto; [left|right]; cbn; congruence].
        cbn [history_ok] in Ho. destruct Ho as (Hc & Hpos & Ho). rewrite same_step in * by exact Logic.I. cbn [fst snd mp_p pstep] in *. rewrite Hk in *.
        destruct (pk_ring _ _ K _ _ Hk) as (Fs & _).
        pose proof (ring_call_spec t Ht s (pc_w (mp_p p)) n o m c H Fs Hc) as A. unfold agrees, agr in A.
        destruct (step_sim t HB (abs s m) T R c acc I HT Hc Hpos) as [[Q _]|[NQ (r' & y & T' & R' & Er & I' & HT' & Qs & El)]].
        * rewrite (ring_panics t Ht s (pc_w (mp_p p)) m T R c I Hc Q) in *. cbn [fst snd] in *. subst x. cbn [ring_answer app].
          apply qa_panic; [exact Q|].
          match type of E with mrun _ _ ?q = _ => refine (IH q _ _ _ s n o m T R (next_total acc (k_len s) c) K1 F E _ _ I _ Ho) end.
          -- cbn. apply put_same.
          -- destruct p as [[[w0 lv cnt] rg pc] ports]. exact H.
          -- destruct c; try (exfalso; exact Q); cbn; [lia|]. pose proof (zlen_nonneg b). pose proof (inv_len _ _ _ _ I). cbn in *. lia.
        * rewrite Er in A. destruct A as (s' & w' & Es & Eabs & Fs' & Rg & O). rewrite Es in *. cbn [fst snd] in *. subst x. cbn [ring_answer app].
          apply (qa_ok _ _ _ (absq r' T' R')); [exact NQ|exact Qs|]. pose proof Fs' as (E1 & E2 & _).
          rewrite Eabs in I' |- *. match type of E with mrun _ _ ?q = _ => refine (IH q _ _ _ s' n o (r_mem r') T' R' (next_total acc (k_len s) c) K1 F E _ _ I' HT' _) end.
          -- cbn. apply put_same.
          -- destruct H as [L R0 [Pv1 Pv2 Pv3] Lo Hi]. cbn [h_alloc ra_ptr ra_len] in *.
             split; cbn [h_alloc ra_ptr ra_len]; rewrite ?E1, ?E2; try assumption.
             split; cbn; [rewrite (oi_next _ _ _ O)|rewrite (oi_fd _ _ _ O)|rewrite (oi_fs _ _ _ O)]; assumption.
          -- rewrite E2. exact Ho.
      + destruct (Z.eqb_spec k2 k) as [->|N]; [|apply Other; auto; [left|right]; cbn; congruence].
        assert (X : ring_answer x = []) by (rewrite same_step in Ex by exact Logic.I; cbn [fst pstep] in Ex; rewrite Hk in Ex; subst x; reflexivity). rewrite X. cbn [app].
        apply Other; eauto.
      + destruct (Z.eqb_spec k2 k) as [->|N]; [constructor|apply Other; auto; [left|right]; cbn; congruence].
  Qed.

  Lemma minf_history h : forall p xs p2 k s n o m T acc, pok t (mp_p p) -> Forall (mcall_ok t) h -> mrun t h p = (xs, p2) ->
    pc_ring (mp_p p) k = Some (HInf s) -> at_home t (pc_w (mp_p p)) (HInf s) n o m -> iinv t (iabs s m) T -> T <= acc ->
    ihistory_ok t acc (ki_len s) (icalls_on k h) ->
    lq_answers (abst (iabs s m) T) (icalls_on k h) (answers_on k h xs).
  Proof.
    induction h as [|c h IH]; intros p xs p2 k s n o m T acc K F E Hk H I HT Ho.
    - injection E as <- <-. constructor.
    - apply Forall_cons_iff in F as [CO F]. apply mrun_cons in E as (x & xs' & -> & Ex & E).
      pose proof (mstep_ok t Ht c p K CO) as K1.
      assert (Other : (ring_subject c <> Some k \/ exists i, c = PCall k i) ->
        ihistory_ok t acc (ki_len s) (icalls_on k h) -> lq_answers (abst (iabs s m) T) (icalls_on k h) (answers_on k h xs')).
      { intros N Ho'. destruct (mother_step c p k _ n o m K CO Hk H) as [Hk1 H1].
        { destruct N as [N|(i & N)]; [left; exact N|right; right]. exists i. split; [exact N|discriminate]. }
        exact (IH _ _ _ _ _ _ _ _ _ _ K1 F E Hk1 H1 I HT Ho'). }
      destruct c as [c|hint clock|hint clock|k2 c|k2 c|k2]; cbn [icalls_on answers_on] in *.
      + apply Other; auto; left; discriminate.
      + apply Other; auto; left; discriminate.
      + apply Other; auto; left; discriminate.
      + destruct (Z.eqb_spec k2 k) as [->|N]; [|apply Other; auto; left; cbn; congruence].
        assert (X : ring_answer x = []) by (rewrite same_step in Ex by exact Logic.I; cbn [fst pstep] in Ex; rewrite Hk in Ex; subst x; reflexivity). rewrite X. cbn [app].
        apply Other; eauto.
      + destruct (Z.eqb_spec k2 k) as [->|N]; [|apply Other; auto; left; cbn; congruence].
        cbn [ihistory_ok] in Ho. destruct Ho as (Hc & Hpos & Ho). rewrite same_step in * by exact Logic.I. cbn [fst snd mp_p pstep] in *. rewrite Hk in *.
        destruct (pk_ring _ _ K _ _ Hk) as (Fs & _).
        pose proof (inf_call_spec t Ht s (pc_w (mp_p p)) n o m c H Fs (proj1 CO)) as A. unfold iagrees, agr in A.
        destruct (istep_sim t HB (iabs s m) T c acc I HT Hc Hpos) as [[Q _]|[NQ (r' & y & T' & Er & I' & HT' & Qs & El)]].
        * rewrite (inf_panics t Ht s (pc_w (mp_p p)) m T c I (proj1 CO) Q) in *. cbn [fst snd] in *. subst x. cbn [ring_answer app].
          apply la_panic; [exact Q|].
          match type of E with mrun _ _ ?q = _ => refine (IH q _ _ _ s n o m T (acc + irop_weight (ki_len s) c) K1 F E _ _ I _ Ho) end.
          -- cbn. apply put_same.
          -- destruct p as [[[w0 lv cnt] rg pc] ports]. exact H.
          -- destruct c; try (exfalso; exact Q); cbn; lia.
        * rewrite Er in A. destruct A as (s' & w' & Es & Eabs & Fs' & Rg & O). rewrite Es in *. cbn [fst snd] in *. subst x. cbn [ring_answer app].
          apply (la_ok _ _ _ (abst r' T')); [exact NQ|exact Qs|]. pose proof Fs' as (E1 & E2 & _).
          rewrite Eabs in I' |- *. match type of E with mrun _ _ ?q = _ => refine (IH q _ _ _ s' n o (i_mem r') T' (acc + irop_weight (ki_len s) c) K1 F E _ _ I' HT' _) end.
          -- cbn. apply put_same.
          -- destruct H as [L R0 [Pv1 Pv2 Pv3] Lo Hi]. cbn [h_alloc ra_ptr ra_len] in *.
             split; cbn [h_alloc ra_ptr ra_len]; rewrite ?E1, ?E2; try assumption.
             split; cbn; [rewrite (oi_next _ _ _ O)|rewrite (oi_fd _ _ _ O)|rewrite (oi_fs _ _ _ O)]; assumption.
          -- rewrite E2. exact Ho.
      + destruct (Z.eqb_spec k2 k) as [->|N]; [constructor|apply Other; auto; left; cbn; congruence].
  Qed.

  Lemma mnew_inv mk hint p k p1 : pok t (mp_p p) -> hint_ok t hint -> (forall pg len, h_alloc (mk pg len) = {| ra_ptr := pg; ra_len := len |}) ->
    mach_new t mk hint p = (ANew (Ret k), p1) ->
    exists pg cap n o, is_ceil (t_alloc t) hint cap /\ 0 < cap /\ 2 * cap < 2 ^ t_bits t /\
      pc_ring (mp_p p1) k = Some (mk pg cap) /\ at_home t (pc_w (mp_p p1)) (mk pg cap) n o (fun _ => 0).
  Proof.
    intros K Hh M E. unfold mach_new in E. cbv zeta in E. destruct (mach_ring_new t hint (mp_mach p)) as [r s'] eqn:En.
    destruct r as [a|e| | |]; try discriminate E. injection E as <- <-.
    assert (Ea : h_alloc (mk (ra_ptr a) (ra_len a)) = a) by (rewrite M; destruct a; reflexivity).
    destruct (mach_home t Ht hint (mp_mach p) _ _ _ (ok_wf _ _ (pk_api _ _ K)) Hh En Ea) as (IC & L1 & L2 & _ & _ & n & H).
    exists (ra_ptr a), (ra_len a), n, (w_next (pc_w (mp_p p)) + 1). do 3 (split; [assumption|]). split; [apply put_same|exact H].
  Qed.

  Theorem mring_end_to_end p hint clock k p1 h xs p2 : mreached t p -> mcall_ok t (PRing hint clock) ->
    mstep t (PRing hint clock) p = (ANew (Ret k), p1) -> Forall (mcall_ok t) h -> mrun t h p1 = (xs, p2) ->
    exists cap, is_ceil (t_alloc t) hint cap /\
      (history_ok t 0 cap (calls_on k h) ->
       q_answers {| q_data := []; q_free := zeros cap |} (calls_on k h) (answers_on k h xs)).
  Proof.
    intros Rp Hh E F Er. pose proof (mreached_ok t Ht p Rp) as K.
    pose proof (mstep_ok t Ht (PRing hint clock) p K Hh) as K1. rewrite E in K1. cbn [snd] in K1. cbn [mstep] in E.
    destruct (mnew_inv (fun ptr len => HRing (kring_new ptr len)) _ _ _ _ K Hh (fun _ _ => eq_refl) E) as (pg & cap & n & o & IC & L1 & L2 & Hk & H).
    exists cap. split; [exact IC|]. intros Ho.
    pose proof (make_inv t HB cap (fun _ => 0) L1 ltac:(lia)) as I.
    replace {| q_data := []; q_free := zeros cap |} with (absq (abs (kring_new pg cap) (fun _ => 0)) 0 0).
    - exact (mring_history h p1 xs p2 k (kring_new pg cap) n o _ 0 0 0 K1 F Er Hk H I ltac:(lia) Ho).
    - unfold absq. cbn [abs kring_new r_mem r_len k_len]. rewrite !Z.sub_0_r. rewrite view_zeros by exact L1. reflexivity.
  Qed.
  Theorem minf_end_to_end p hint clock k p1 h xs p2 : mreached t p -> mcall_ok t (PInf hint clock) ->
    mstep t (PInf hint clock) p = (ANew (Ret k), p1) -> Forall (mcall_ok t) h -> mrun t h p1 = (xs, p2) ->
    exists cap, is_ceil (t_alloc t) hint cap /\
      (ihistory_ok t 0 cap (icalls_on k h) ->
       lq_answers {| lq_tape := zeros cap; lq_len := 0 |} (icalls_on k h) (answers_on k h xs)).
  Proof.
    intros Rp Hh E F Er. pose proof (mreached_ok t Ht p Rp) as K.
    pose proof (mstep_ok t Ht (PInf hint clock) p K Hh) as K1. rewrite E in K1. cbn [snd] in K1. cbn [mstep] in E.
    destruct (mnew_inv (fun ptr len => HInf (kiring_new ptr len)) _ _ _ _ K Hh (fun _ _ => eq_refl) E) as (pg & cap & n & o & IC & L1 & L2 & Hk & H).
    exists cap. split; [exact IC|]. intros Ho.
    pose proof (imake_inv t HB cap (fun _ => 0) L1 L2) as I.
    replace {| lq_tape := zeros cap; lq_len := 0 |} with (abst (iabs (kiring_new pg cap) (fun _ => 0)) 0).
    - exact (minf_history h p1 xs p2 k (kiring_new pg cap) n o _ 0 0 K1 F Er Hk H I ltac:(lia) Ho).
    - unfold abst. cbn [iabs kiring_new i_mem i_len i_rlen ki_len ki_rlen]. rewrite view_zeros by exact L1. reflexivity.
  Qed.

  (** ** Who can touch what *)
  Lemma mapart s : mreached t s -> let p := mp_p s in
    (forall k1 k2 h1 h2 a, pc_ring p k1 = Some h1 -> pc_ring p k2 = Some h2 -> k1 <> k2 -> ring_addr h1 a -> ring_addr h2 a -> False) /\
    (forall k h k' l a, pc_ring p k = Some h -> a_live (pc_a p) k' = Some l -> ring_addr h a -> map_addr l a -> False) /\
    (forall k1 k2 l1 l2 a, a_live (pc_a p) k1 = Some l1 -> a_live (pc_a p) k2 = Some l2 -> k1 <> k2 -> map_addr l1 a -> map_addr l2 a -> False).
  Proof. intros Rp. exact (pok_apart t Ht _ (mreached_ok t Ht s Rp)). Qed.

  Lemma mring_calls_local p c x p' a : mreached t p -> mcall_ok t c -> (forall c', c <> PMap c') -> mstep t c p = (x, p') ->
    (forall k h, ring_subject c = Some k -> pc_ring (mp_p p) k = Some h -> ~ ring_addr h a) -> load (E:=error) t (pc_w (mp_p p)) a <> Fault ->
    load (E:=error) t (pc_w (mp_p p')) a = load t (pc_w (mp_p p)) a.
  Proof.
    intros Rp [CO Hh] NM E N F. pose proof (mreached_ok t Ht p Rp) as K. pose proof K as [A C R RR RM].
    assert (Me : exists e, w_vm (pc_w (mp_p p)) (a / P) = Some e).
    { unfold load in F. destruct (w_vm (pc_w (mp_p p)) (a / P)) as [e|]; [eauto|congruence]. }
    destruct Me as (e & He).
    assert (New : forall mk hint, hint_ok t hint -> mach_new t mk hint p = (x, p') ->
      load (E:=error) t (pc_w (mp_p p')) a = load t (pc_w (mp_p p)) a).
    { intros mk hint Hi En. unfold mach_new in En. cbv zeta in En. destruct (mach_ring_new t hint (mp_mach p)) as [r s'] eqn:Er.
      assert (W' : pc_w (mp_p p') = mc_w s') by (destruct r; injection En as _ <-; reflexivity). rewrite W'.
      destruct (mach_new_keeps t Ht _ _ _ _ Hi Er) as [G V]. cbn [mp_mach mc_w] in G, V.
      apply load_same; [rewrite He; exact (V _ _ He)|]. intros e' He'. apply (gw_obj _ _ G), (wf_vm _ (ok_wf _ _ A) _ _ He'). }
    assert (Same : (match c with PMap _ | PCall _ _ | PICall _ _ => True | _ => False end) ->
      load (E:=error) t (pc_w (mp_p p')) a = load t (pc_w (mp_p p)) a).
    { intros Sc. rewrite same_step in E by exact Sc. injection E as _ <-. cbn [mp_p].
      destruct (pstep t Anonymous c (mp_p p)) as [x0 p0] eqn:Es. exact (pok_local t Anonymous Ht _ _ _ _ a K CO NM Es N F). }
    destruct c as [c|hint clock|hint clock|k c|k c|k]; try (apply Same; exact Logic.I).
    - exact (New _ _ (conj CO Hh) E).
    - exact (New _ _ (conj CO Hh) E).
    - cbn [mstep ring_subject] in *. destruct (pc_ring (mp_p p) k) as [h|] eqn:Hk; [|injection E as _ <-; reflexivity].
      destruct (mach_ring_drop t (h_alloc h) (mp_mach p)) as [r s'] eqn:Ed. injection E as _ <-. destruct (R _ _ Hk) as (Fs & n & o & m & H).
      destruct (mach_home_drop t Ht (mp_mach p) _ _ _ _ _ _ H Ed) as (_ & _ & O & _ & _ & _ & D). cbn [mp_mach mc_w] in *.
      change (load (E:=error) t (mc_w s') a = load t (pc_w (mp_p p)) a).
      apply load_same; [|intros; rewrite O; reflexivity]. destruct D as [[_ D]|[_ D]]; [|rewrite D; reflexivity].
      apply D. intros Hp. exact (N k h eq_refl Hk (page_addr t Ht _ _ _ _ _ _ H Hp)).
  Qed.

  Lemma mring_calls_safe p c r p' : mreached t p -> mcall_ok t c -> mstep t c p = (ARing r, p') -> r = Panic \/ exists y, r = Ret y.
  Proof.
    intros Rp [CO _] E. pose proof (mreached_ok t Ht p Rp) as K.
    assert (Same : (match c with PMap _ | PCall _ _ | PICall _ _ => True | _ => False end) -> r = Panic \/ exists y, r = Ret y).
    { intros Sc. rewrite same_step in E by exact Sc. injection E as E1 _. destruct (pstep t Anonymous c (mp_p p)) as [x0 p0] eqn:Es. cbn [fst] in E1. subst x0.
      exact (pok_safe t Anonymous Ht _ _ _ _ K CO Es). }
    destruct c as [c|hint clock|hint clock|k c|k c|k]; try (apply Same; exact Logic.I); exfalso; cbn [mstep] in E.
    - unfold mach_new in E. cbv zeta in E. destruct (mach_ring_new t hint (mp_mach p)) as [[]]; discriminate E.
    - unfold mach_new in E. cbv zeta in E. destruct (mach_ring_new t hint (mp_mach p)) as [[]]; discriminate E.
    - destruct (pc_ring (mp_p p) k); [|discriminate E]. destruct (mach_ring_drop t _ (mp_mach p)). discriminate E.
  Qed.

  (** A ring's contents are changed by its own calls only. *)
  Lemma mring_kept hs : forall p xs p' k h, pok t (mp_p p) -> Forall (mcall_ok t) hs -> Forall (fun c => ring_subject c <> Some k) hs ->
    pc_ring (mp_p p) k = Some h -> mrun t hs p = (xs, p') ->
    pc_ring (mp_p p') k = Some h /\ forall a, ring_addr h a -> load (E:=error) t (pc_w (mp_p p')) a = load t (pc_w (mp_p p)) a.
  Proof.
    induction hs as [|c hs IH]; intros p xs p' k h K CO N Hk E.
    - injection E as <- <-. auto.
    - apply Forall_cons_iff in CO as [CO COs]. apply Forall_cons_iff in N as [N Ns]. apply mrun_cons in E as (x & xs' & -> & Ex & E).
      pose proof (mstep_ok t Ht c p K CO) as K1. destruct (pk_ring _ _ K _ _ Hk) as (_ & n & o & m & H).
      destruct (mother_step c p k h n o m K CO Hk H (or_introl N)) as [Hk1 H1].
      destruct (IH _ _ _ _ _ K1 COs Ns Hk1 E) as [E1 E2]. split; [exact E1|]. intros a Ha. rewrite (E2 a Ha).
      pose proof (hm_len _ _ _ _ _ _ H) as L. unfold ring_addr in Ha. rewrite L in Ha.
      replace a with (ra_ptr (h_alloc h) + (a - ra_ptr (h_alloc h))) by lia.
      rewrite (ring_load t Hg _ _ _ _ _ (a - ra_ptr (h_alloc h)) (hm_ring _ _ _ _ _ _ H) ltac:(lia)).
      rewrite (ring_load t Hg _ _ _ _ _ (a - ra_ptr (h_alloc h)) (hm_ring _ _ _ _ _ _ H1) ltac:(lia)). reflexivity.
  Qed.

  (** Files are untouched by rings. *)
  Lemma mring_calls_files p c x p' path : mreached t p -> mcall_ok t c -> (forall c', c <> PMap c') -> mstep t c p = (x, p') -> 0 <= path ->
    w_fs (pc_w (mp_p p')) path = w_fs (pc_w (mp_p p)) path /\
    (forall o, w_fs (pc_w (mp_p p)) path = Some o -> w_obj (pc_w (mp_p p')) o = w_obj (pc_w (mp_p p)) o) /\
    (forall fd, w_fd (pc_w (mp_p p')) fd = w_fd (pc_w (mp_p p)) fd) /\ a_live (pc_a (mp_p p')) = a_live (pc_a (mp_p p)).
  Proof.
    intros Rp [CO Hh] NM E Hp. pose proof (mreached_ok t Ht p Rp) as K. pose proof K as [A C R RR RM]. pose proof (ok_wf _ _ A) as W.
    assert (New : forall mk hint, hint_ok t hint -> mach_new t mk hint p = (x, p') ->
      w_fs (pc_w (mp_p p')) path = w_fs (pc_w (mp_p p)) path /\
      (forall o, w_fs (pc_w (mp_p p)) path = Some o -> w_obj (pc_w (mp_p p')) o = w_obj (pc_w (mp_p p)) o) /\
      (forall fd, w_fd (pc_w (mp_p p')) fd = w_fd (pc_w (mp_p p)) fd) /\ a_live (pc_a (mp_p p')) = a_live (pc_a (mp_p p))).
    { intros mk hint Hi En. unfold mach_new in En. cbv zeta in En. destruct (mach_ring_new t hint (mp_mach p)) as [r s'] eqn:Er.
      assert (W' : pc_w (mp_p p') = mc_w s') by (destruct r; injection En as _ <-; reflexivity). rewrite W'.
      destruct (mach_new_keeps t Ht _ _ _ _ Hi Er) as [G _]. cbn [mp_mach mc_w] in G.
      split; [rewrite (gw_fs _ _ G); reflexivity|]. split; [intros o Ho; apply (gw_obj _ _ G), (wf_fs _ W _ _ Ho)|].
      split; [rewrite (gw_fd _ _ G); reflexivity|]. destruct r; injection En as _ <-; reflexivity. }
    assert (Same : (match c with PMap _ | PCall _ _ | PICall _ _ => True | _ => False end) ->
      w_fs (pc_w (mp_p p')) path = w_fs (pc_w (mp_p p)) path /\
      (forall o, w_fs (pc_w (mp_p p)) path = Some o -> w_obj (pc_w (mp_p p')) o = w_obj (pc_w (mp_p p)) o) /\
      (forall fd, w_fd (pc_w (mp_p p')) fd = w_fd (pc_w (mp_p p)) fd) /\ a_live (pc_a (mp_p p')) = a_live (pc_a (mp_p p))).
    { intros Sc. rewrite same_step in E by exact Sc. injection E as _ <-. cbn [mp_p].
      destruct (pstep t Anonymous c (mp_p p)) as [x0 p0] eqn:Es. exact (pok_files t Anonymous Ht _ _ _ _ path K CO NM Es Hp). }
    destruct c as [c|hint clock|hint clock|k c|k c|k]; try (apply Same; exact Logic.I).
    - exact (New _ _ (conj CO Hh) E).
    - exact (New _ _ (conj CO Hh) E).
    - cbn [mstep] in *. destruct (pc_ring (mp_p p) k) as [h|] eqn:Hk; [|injection E as _ <-; auto].
      destruct (mach_ring_drop t (h_alloc h) (mp_mach p)) as [r s'] eqn:Ed. injection E as _ <-. destruct (R _ _ Hk) as (Fs & n & o & m & H).
      destruct (mach_home_drop t Ht (mp_mach p) _ _ _ _ _ _ H Ed) as (_ & _ & O & _ & F & S & _). cbn [mp_mach mc_w] in *.
      change (w_fs (mc_w s') path = w_fs (pc_w (mp_p p)) path /\ (forall o, w_fs (pc_w (mp_p p)) path = Some o -> w_obj (mc_w s') o = w_obj (pc_w (mp_p p)) o) /\
        (forall fd, w_fd (mc_w s') fd = w_fd (pc_w (mp_p p)) fd) /\ a_live (pc_a (mp_p p)) = a_live (pc_a (mp_p p))). rewrite O, F, S. auto.
  Qed.

  (** ** Which pages are mapped *)
  Lemma mbalanced_step B c p : pok t (mp_p p) -> mcall_ok t c -> mtidy t c p -> balanced t B (mp_p p) -> balanced t B (mp_p (snd (mstep t c p))).
  Proof.
    intros K [CO Hh] Td Bl. pose proof K as [A C R RR RM].
    assert (Same : (match c with PMap _ | PCall _ _ | PICall _ _ => True | _ => False end) -> balanced t B (mp_p (snd (mstep t c p)))).
    { intros Sc. unfold mtidy in Td. rewrite same_step in Td |- * by exact Sc. cbn [snd mp_p] in *.
      apply balanced_step; try assumption. unfold tidy. destruct (pstep t Anonymous c (mp_p p)) as [x0 p0].
      destruct c as [c| | | | | ]; try contradiction Sc; exact Td. }
    assert (New : forall mk hint, hint_ok t hint -> (forall pg len, h_alloc (mk pg len) = {| ra_ptr := pg; ra_len := len |}) ->
      (forall e, fst (mach_new t mk hint p) = ANew (Err e) -> e_op e <> RingAllocate ->
         ~ refused_last (pc_w (mp_p p)) (pc_w (mp_p (snd (mach_new t mk hint p))))) -> balanced t B (mp_p (snd (mach_new t mk hint p)))).
    { intros mk hint Hi M Tn. unfold mach_new in *. cbv zeta in *. destruct (mach_ring_new t hint (mp_mach p)) as [r s'] eqn:E.
      pose proof (ok_wf _ _ A) as W. pose proof (mach_new_cases t Hg _ _ _ _ Hi E) as Cs. destruct r as [b|e| | |]; cbn [fst snd mp_p] in *; try contradiction Cs.
      - assert (Ea : h_alloc (mk (ra_ptr b) (ra_len b)) = b) by (rewrite M; destruct b; reflexivity).
        destruct (mach_home t Ht hint (mp_mach p) _ _ _ W Hi E Ea) as (_ & _ & _ & Fr & Ot & n & H).
        exact (balanced_new t Ht B (mp_p p) (mc_w s') _ _ _ _ K Bl Fr Ot H).
      - apply balanced_same; [|exact Bl]. intros pg. destruct Cs as (k & len & (Hk & c0 & ->) & [V|(K0 & Rf & _)] & _); [cbn [mp_mach mc_w] in V; rewrite V; reflexivity|].
        exfalso. refine (Tn _ eq_refl _ Rf). cbn. do 4 (destruct k as [|k]; [try lia; discriminate|]). lia.
      - subst s'. apply balanced_same; [|exact Bl]. reflexivity. }
    unfold mtidy in Td.
    destruct c as [c|hint clock|hint clock|k c|k c|k]; try (apply Same; exact Logic.I).
    - specialize (New (fun ptr len => HRing (kring_new ptr len)) hint (conj CO Hh) (fun _ _ => eq_refl)). cbn [mstep] in *.
      destruct (mach_new t _ hint p) as [x p']. exact (New Td).
    - specialize (New (fun ptr len => HInf (kiring_new ptr len)) hint (conj CO Hh) (fun _ _ => eq_refl)). cbn [mstep] in *.
      destruct (mach_new t _ hint p) as [x p']. exact (New Td).
    - cbn [mstep] in *. destruct (pc_ring (mp_p p) k) as [h|] eqn:Hk; [|exact Bl].
      destruct (mach_ring_drop t (h_alloc h) (mp_mach p)) as [r s'] eqn:Ed. destruct (R _ _ Hk) as (Fs & n & o & m & H). cbn [snd mp_p] in *.
      destruct (mach_home_drop t Ht (mp_mach p) _ _ _ _ _ _ H Ed) as (_ & _ & _ & _ & _ & _ & [[D1 D2]|[D _]]); [|destruct (Td D)].
      exact (balanced_gone t B (mp_p p) (mc_w s') k h K Bl Hk D1 D2).
  Qed.
  Lemma mtidily_reached w p : mtidily t w p -> mreached t p.
  Proof. induction 1; [apply mr_start|apply mr_step]; assumption. Qed.
  Theorem mtidily_balanced w p : mtidily t w p -> balanced t (mapped w) (mp_p p).
  Proof.
    induction 1 as [ports W|p c T IH CO Td].
    - exact (balanced_fresh t w).
    - apply mbalanced_step; try assumption. exact (mreached_ok t Ht p (mtidily_reached _ _ T)).
  Qed.

  (** ** Ports *)
  Lemma ports_trans k1 k2 s1 s2 s3 : ports_more k1 s1 s2 -> ports_more k2 s2 s3 -> ports_more (k1 + k2) s1 s3.
  Proof.
    intros (l1 & N1 & L1 & I1 & O1) (l2 & N2 & L2 & I2 & O2). exists (l1 ++ l2).
    assert (Dj : forall q, In q l1 -> ~ In q l2) by (intros q J1 J2; exact (proj2 (I1 q J1) (proj1 (I2 q J2)))).
    split. { clear -N1 N2 Dj. induction N1 as [|x l Nx N IH]; [exact N2|]. cbn. constructor.
      - rewrite in_app_iff. intros [J|J]; [exact (Nx J)|exact (Dj x (or_introl eq_refl) J)].
      - apply IH. intros q J. apply Dj. right. exact J. }
    split; [rewrite app_length; lia|]. split.
    - intros q J. apply in_app_iff in J as [J|J].
      + destruct (I1 q J) as [J1 J2]. split; [exact J1|]. rewrite O2 by exact (Dj q J). exact J2.
      + destruct (I2 q J) as [J1 J2]. split; [|exact J2]. rewrite <- O1; [exact J1|]. intros J3. exact (Dj q J3 J).
    - intros q J. rewrite O2, O1; [reflexivity| |]; intros J1; apply J, in_app_iff; auto.
  Qed.
  Lemma ports_none s s' : same_ports s s' -> ports_more 0 s s'.
  Proof. intros S. exists []. split; [constructor|]. split; [reflexivity|]. split; [intros q []|]. intros q _. apply S. Qed.
  Lemma ports_one s s' : one_port_more s s' -> ports_more 1 s s'.
  Proof.
    intros (port & N & Y & O). exists [port]. split; [constructor; [intros []|constructor]|]. split; [reflexivity|]. split.
    - intros q [<-|[]]. auto.
    - intros q J. apply O. intros ->. apply J. left. reflexivity.
  Qed.
  Lemma step_ports c p : pok t (mp_p p) -> mcall_ok t c ->
    ports_more (if leaks_port (fst (mstep t c p)) then 1 else 0) (mp_mach p) (mp_mach (snd (mstep t c p))).
  Proof.
    intros K [CO Hh].
    assert (Same : (match c with PMap _ | PCall _ _ | PICall _ _ => True | _ => False end) ->
      ports_more (if leaks_port (fst (mstep t c p)) then 1 else 0) (mp_mach p) (mp_mach (snd (mstep t c p)))).
    { intros Sc. rewrite same_step by exact Sc. cbn [fst snd].
      replace (leaks_port (fst (pstep t Anonymous c (mp_p p)))) with false; [apply ports_none; intros q; reflexivity|].
      destruct c as [c|hint clock|hint clock|k c|k c|k]; try contradiction Sc; cbn [pstep].
      - destruct (step t c (pc_a (mp_p p))); reflexivity.
      - destruct (pc_ring (mp_p p) k) as [[s|s]|]; try reflexivity. destruct (kring_step _ _ _ _ _ _ _) as [? [? ?]]; reflexivity.
      - destruct (pc_ring (mp_p p) k) as [[s|s]|]; try reflexivity. destruct (kiring_step _ _ _ _ _ _ _) as [? [? ?]]; reflexivity. }
    assert (New : forall mk hint, hint_ok t hint ->
      ports_more (if leaks_port (fst (mach_new t mk hint p)) then 1 else 0) (mp_mach p) (mp_mach (snd (mach_new t mk hint p)))).
    { intros mk hint Hi. unfold mach_new. cbv zeta. destruct (mach_ring_new t hint (mp_mach p)) as [r s'] eqn:E.
      apply (mach_new_cases t Hg) in E; [|exact Hi]. destruct r as [b|e| | |]; cbn [fst snd leaks_port]; try contradiction E.
      - destruct E as (n & _ & _ & Al). apply ports_one. destruct (mach_port t _ _ _ _ Al) as (port & Q). exists port. exact Q.
      - destruct E as (k & len & (Hk & c0 & ->) & _ & Pt & _).
        assert (L : match e_op (error_kernel (mach_stage k) c0) with RingSecondary => true | _ => false end = (k =? 3)%nat).
        { do 4 (destruct k as [|k]; [reflexivity|]). lia. }
        rewrite L. destruct (k =? 3)%nat; [apply ports_one|apply ports_none]; exact Pt.
      - subst s'. apply ports_none. intros q. reflexivity. }
    destruct c as [c|hint clock|hint clock|k c|k c|k]; try (apply Same; exact Logic.I).
    - apply New. split; assumption.
    - apply New. split; assumption.
    - cbn [mstep]. destruct (pc_ring (mp_p p) k) as [h|] eqn:Hk; [|apply ports_none; intros q; reflexivity].
      destruct (mach_ring_drop t (h_alloc h) (mp_mach p)) as [r s'] eqn:Ed. destruct (pk_ring _ _ K _ _ Hk) as (Fs & n & o & m & H).
      destruct (mach_home_drop t Ht (mp_mach p) _ _ _ _ _ _ H Ed) as (_ & Pt & _). cbn [fst snd leaks_port]. apply ports_none. intros q.
      cbn [mp_mach mc_ports mp_ports]. rewrite Pt. reflexivity.
  Qed.
  Theorem run_ports h : forall p xs p', pok t (mp_p p) -> Forall (mcall_ok t) h -> mrun t h p = (xs, p') ->
    ports_more (length (filter leaks_port xs)) (mp_mach p) (mp_mach p').
  Proof.
    induction h as [|c h IH]; intros p xs p' K F E.
    - injection E as <- <-. apply ports_none. intros q. reflexivity.
    - apply Forall_cons_iff in F as [CO F]. apply mrun_cons in E as (x & xs' & -> & Ex & E).
      pose proof (step_ports c p K CO) as S. rewrite Ex in S. pose proof (IH _ _ _ (mstep_ok t Ht c p K CO) F E) as S2.
      pose proof (ports_trans _ _ _ _ _ S S2) as S3. cbn [filter]. destruct (leaks_port x); exact S3.
  Qed.
End Claims.
