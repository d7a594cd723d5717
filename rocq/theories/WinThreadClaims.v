(** Lemmas behind the properties of calls in progress on Windows: what
    interleavings cannot change. *)
From Coq Require Import Lia.
From Verif Require Import Base Spec ErrorModel RingSpec RingModel SizeModel OsModel MapModel MapSpec RingMapModel RingMapSpec SizeProofs OsProofs
  MapProofs MapCreate MapOps MirrorProofs RingMapClaims RingProofs IRingProofs RingWeak SeqProofs MemRingModel MemRingProofs ApiModel ApiSpec ApiProofs ProcModel ProcSpec ProcFrame ProcProofs ProcPages ProcClaims
  WinModel WinSpec WinProofs WinClaims WinCalls WinMapModel WinMapSpec WinSpace WinKeep WinMapProofs WinAlloc WinThings WinHist WinLeak WinMapClaims
  WinProcModel WinProcSpec WinProcProofs WinProcClaims WinLedgerSpec WinLedger WinThreadModel WinThreadSpec WinThreadInv WinThreadAdv WinThreadStep.

Section Claims.
  Variable t : target.
  Hypothesis Ht : good_target t.
  Notation P := (t_page t).
  Notation G := (t_alloc t).
  Notation q := (as_posix t).
  Let HP : 0 < P.
  Proof. exact (pow2_pos _ (proj1 (proj2 Ht))). Qed.
  Let HG : 0 < G.
  Proof. exact (pow2_pos _ (proj1 (proj2 (proj2 Ht)))). Qed.
  Let Hq : posix_target q.
  Proof. exact (posix_of t Ht). Qed.
  Let HB : 32 <= t_bits t <= 64.
  Proof. destruct Ht as [[E|E] _]; lia. Qed.

  (** ** Apart, mapped *)
  Lemma addr_page s x a : thing_ok t s x -> addr_of x <= a < addr_of x + size_of x -> thing_page t x (a / P).
  Proof.
    intros H Ha. destruct x as [v|r o]; cbn -[Z.mul Z.add] in *.
    - assert (C : 0 < m_ptr (v_map v) mod P + m_len (v_map v)) by (pose proof (Z.mod_pos_bound (m_ptr (v_map v)) P HP); lia).
      pose proof (mo_back _ _ _ H C) as B. assert (Hi : 0 <= a - m_ptr (v_map v) < m_len (v_map v)) by lia.
      destruct (byte_page q Hq _ _ _ _ _ _ B _ Hi) as (_ & OP & _). replace (m_ptr (v_map v) + (a - m_ptr (v_map v))) with a in OP by lia. exact OP.
    - destruct H as (n & H). pose proof (ro_len _ _ _ _ _ H) as L. rewrite L in *. pose proof (ro_n _ _ _ _ _ H).
      replace (P * n) with (n * P) in * by lia. rewrite Z.div_mul by lia.
      destruct (page_split t Ht (ra_ptr r) (a - ra_ptr r) (ro_align _ _ _ _ _ H)) as [E1 _]. replace (ra_ptr r + (a - ra_ptr r)) with a in E1 by lia. rewrite E1.
      assert (0 <= (a - ra_ptr r) / P < 2 * n) by (split; [apply Z.div_pos; lia|apply Z.div_lt_upper_bound; lia]). lia.
  Qed.
  Definition has_base (s : wtsys) (z : wowner) (b : Z) : Prop :=
    exists it x, fam t (wp_g (wt_p s)) (wt_pool s) z = Some it /\ i_thing it = Some x /\ bases_of t x b.
  Definition has_resv (s : wtsys) (z : wowner) (b : Z) : Prop :=
    exists tid pd, z = WThread tid /\ wt_pool s tid = Some pd /\ wpd_resv pd = Some b.
  Lemma occ_region s0 s z a : wtok t s0 s -> woccupies t s z a ->
    exists b n, region s0 (g_s (wp_g (wt_p s))) b n /\ in_view t b n (a / P) /\ (has_base s z b \/ has_resv s z b).
  Proof.
    intros K O. pose proof (tk_g _ _ _ K) as Kg. pose proof (gk_fam _ _ _ _ Kg) as F. set (s1 := g_s (wp_g (wt_p s))) in *.
    assert (Th : forall it x, fam t (wp_g (wt_p s)) (wt_pool s) z = Some it -> i_thing it = Some x -> addr_of x <= a < addr_of x + size_of x ->
      exists b n, region s0 s1 b n /\ in_view t b n (a / P) /\ (has_base s z b \/ has_resv s z b)).
    { intros it x Hz Hx Ha. destruct (fo_thing _ _ _ F _ _ _ Hz Hx) as (Tx & _).
      destruct (thing_in_view t Ht _ _ _ Tx (addr_page _ _ _ Tx Ha)) as (b & n & Bb & Vb & Ib).
      exists b, n. split; [left; exact Vb|]. split; [exact Ib|]. left. exists it, x. auto. }
    destruct z as [k|tid]; cbn [woccupies] in O.
    - destruct O as (x & Hx & Ha). apply (Th (tab_item x) x); [cbn; rewrite Hx; reflexivity|reflexivity|exact Ha].
    - destruct O as (pd & Hp & Ha). assert (Hz : fam t (wp_g (wt_p s)) (wt_pool s) (WThread tid) = wpiece t pd) by (cbn; rewrite Hp; reflexivity). rewrite Hz in Th.
      destruct pd; cbn [wpd_addr wpiece] in *; try contradiction Ha; try (destruct r as [ptr|e| | |]; try contradiction Ha);
        try (refine (Th _ _ eq_refl eq_refl _); cbn -[Z.mul Z.add]; lia).
      destruct (gk_stage _ _ _ _ Kg _ _ Hp) as (_ & _ & Al & R0 & R1 & _).
      exists pg, (npages t full). split; [right; split; assumption|]. split.
      + assert (M : pg mod P = 0) by exact (aligned_page t Ht _ Al).
        destruct (page_split t Ht pg (a - pg) M) as [E1 _]. replace (pg + (a - pg)) with a in E1 by lia. unfold in_view. rewrite E1.
        pose proof (npages_bounds t HP full) as NB. assert (0 <= (a - pg) / P < npages t full) by (split; [apply Z.div_pos; lia|apply Z.div_lt_upper_bound; lia]). lia.
      + right. exists tid. eexists. split; [reflexivity|]. split; [exact Hp|reflexivity].
  Qed.
  Lemma wtok_apart s0 s x y a : wtok t s0 s -> x <> y -> woccupies t s x a -> woccupies t s y a -> False.
  Proof.
    intros K N Ox Oy. pose proof (tk_g _ _ _ K) as Kg. pose proof (gk_fam _ _ _ _ Kg) as F. pose proof (gk_tiled _ _ _ _ Kg) as T.
    destruct (occ_region _ _ _ _ K Ox) as (b & n & Rb & Ib & Hb). destruct (occ_region _ _ _ _ K Oy) as (c & m & Rc & Ic & Hc).
    assert (b = c) by exact (td_apart _ _ _ T _ _ _ _ _ Rb Rc Ib Ic). subst c.
    assert (BR : forall z z', has_base s z b -> has_resv s z' b -> False).
    { intros z z' (it & u & Hz & Hu & Bu) (tid & pd & _ & Hp & Hr). destruct (fo_thing _ _ _ F _ _ _ Hz Hu) as (Tu & _).
      destruct (bases_view t _ _ _ Tu Bu) as (k & V). apply (td_one _ _ _ T) in V.
      destruct (resv_left t _ _ _ _ (gk_stage _ _ _ _ Kg _ _ Hp) Hr) as (k' & _ & R). congruence. }
    destruct Hb as [Hb|Hb], Hc as [Hc|Hc]; eauto.
    - destruct Hb as (it & u & Hz & Hu & Bu), Hc as (jt & v & Hy & Hv & Bv). exact (fo_apart _ _ _ F _ _ _ _ _ _ _ N Hz Hy Hu Hv Bu Bv).
    - destruct Hb as (i & pd & -> & Hp & Hr), Hc as (j & pe & -> & Hp' & Hr'). refine (gk_resv _ _ _ _ Kg i j pd pe b _ Hp Hp' Hr Hr'). congruence.
  Qed.
  Lemma wtok_mapped s0 s x a : wtok t s0 s -> woccupies t s x a -> w_vm (n_w (g_s (wp_g (wt_p s)))) (a / P) <> None.
  Proof.
    intros K O. destruct (occ_region _ _ _ _ K O) as (b & n & Rb & Ib & _). apply (td_page _ _ _ (gk_tiled _ _ _ _ (tk_g _ _ _ K))). eauto.
  Qed.

  (** ** Handles *)
  Lemma wtok_handles s0 s h : wtok t s0 s ->
    (exists tid pd, wt_pool s tid = Some pd /\ wpd_handle pd = Some h /\ n_sec s0 h = None /\ n_sec (g_s (wp_g (wt_p s))) h <> None /\
       forall i pe, wt_pool s i = Some pe -> wpd_handle pe = Some h -> i = tid) \/
    ((forall tid pd, wt_pool s tid = Some pd -> wpd_handle pd <> Some h) /\ n_sec (g_s (wp_g (wt_p s))) h = n_sec s0 h).
  Proof.
    intros K. pose proof (tk_g _ _ _ K) as Kg. destruct (gk_sec _ _ _ _ Kg h) as [(tid & pd & Hp & Hh)|E].
    - left. exists tid, pd. split; [exact Hp|]. split; [exact Hh|]. split; [exact (gk_new _ _ _ _ Kg _ _ _ Hp Hh)|].
      split; [exact (handle_sec t _ _ _ _ (gk_stage _ _ _ _ Kg _ _ Hp) Hh)|].
      intros i pe Hi He. destruct (Z.eq_dec i tid) as [E|N]; [exact E|]. exfalso. exact (gk_hand _ _ _ _ Kg i tid pe pd h N Hi Hp He Hh).
    - right. split; [|exact E]. intros tid pd Hp Hh. pose proof (gk_new _ _ _ _ Kg _ _ _ Hp Hh) as N.
      pose proof (handle_sec t _ _ _ _ (gk_stage _ _ _ _ Kg _ _ Hp) Hh). congruence.
  Qed.

  (** ** What the next system call of a thread does to the rest *)
  Lemma go_ev s0 s tid pd : wtok t s0 s -> wt_pool s tid = Some pd -> let s' := snd (wgo t tid pd s) in
    exists X, evolves t X none none (g_s (wp_g (wt_p s))) (g_s (wp_g (wt_p s'))) /\ (forall b, X b -> bases_item t (wpiece t pd) b) /\
      (forall k x, g_tab (wp_g (wt_p s)) k = Some x -> g_tab (wp_g (wt_p s')) k = Some x) /\
      (forall k h, wp_ring (wt_p s) k = Some h -> wp_ring (wt_p s') k = Some h).
  Proof.
    intros [K Rg] Hp. pose proof (gk_fam _ _ _ _ K) as [W So _ _ _ _].
    pose proof (wadvance_ok t Ht s0 _ pd W So (gk_tiled _ _ _ _ K) (gk_stage _ _ _ _ K _ _ Hp) (gok_item t _ _ _ _ _ K Hp)) as A. cbv zeta in A |- *. unfold wgo.
    assert (Nk : forall s' x k y, g_tab (wp_g (wt_p s)) k = Some y -> g_tab (g_add (wp_g (wt_p s)) s' x) k = Some y).
    { intros s' x k y Hk. cbn. rewrite put_other; [exact Hk|]. pose proof (gk_keys _ _ _ _ K _ _ Hk). lia. }
    destruct (wadvance t pd (g_s (wp_g (wt_p s)))) as [x s']. cbn [fst snd] in A. destruct x as [pd'|mut own o fd ob m|mut o ob m|inf ob pg len|r]; cbn [good_outcome snd] in *.
    - destruct A as [[(X & E & B) _ _ _ _ _] _]. exists X. cbn. auto.
    - destruct A as [(X & E & B) _ _ _ _ _]. exists X. cbn -[g_add]. split; [exact E|]. split; [exact B|]. split; [intros k y; apply Nk|auto].
    - destruct A as [[(X & E & B) _ _ _ _ _] _]. exists X. cbn -[g_add]. split; [exact E|]. split; [exact B|]. split; [intros k y; apply Nk|auto].
    - destruct A as [[(X & E & B) _ _ _ _ _] _]. exists X. cbn -[g_add]. split; [exact E|]. split; [exact B|]. split; [intros k y; apply Nk|].
      intros k h Hk. rewrite put_other; [exact Hk|]. destruct (Rg k h Hk) as (_ & o & Ho). pose proof (gk_keys _ _ _ _ K _ _ Ho). lia.
    - destruct A as [(X & E & B) _ _ _ _ _]. exists X. cbn. auto.
  Qed.
  Lemma kept_go s0 s tid pd k x : wtok t s0 s -> wt_pool s tid = Some pd -> g_tab (wp_g (wt_p s)) k = Some x -> private_thing x = true ->
    forall i, reading t (wp_g (wt_p (snd (wgo t tid pd s)))) k i = reading t (wp_g (wt_p s)) k i.
  Proof.
    intros K Hp Hk Px i. pose proof (go_ok t Ht s0 s tid pd K Hp) as K'. destruct (go_ev s0 s tid pd K Hp) as (X & Ev & HX & Tb & _). pose proof (Tb _ _ Hk) as Hk'.
    set (s' := snd (wgo t tid pd s)) in *. pose proof (gok_prog t _ _ _ (tk_g _ _ _ K)) as Pg. pose proof (gok_prog t _ _ _ (tk_g _ _ _ K')) as Pg'.
    pose proof (gk_fam _ _ _ _ (tk_g _ _ _ K)) as F.
    rewrite (reading_eq t Ht _ _ _ i Hk' (po_thing _ _ Pg' _ _ Hk')), (reading_eq t Ht _ _ _ i Hk (po_thing _ _ Pg _ _ Hk)).
    destruct ((0 <=? i) && (i <? size_of x)) eqn:B; [|reflexivity]. apply andb_true_iff in B as [B1 B2]. apply Z.leb_le in B1. apply Z.ltb_lt in B2. f_equal.
    apply (bytes_ev t Ht X none none _ _ x i (po_space _ _ Pg) Ev); auto.
    - intros b Xb Bb. destruct (HX b Xb) as (it & y & Hit & Hy & By).
      refine (fo_apart _ _ _ F (WThing k) (WThread tid) (tab_item x) it x y b _ _ _ eq_refl Hy Bb By); [discriminate|cbn; rewrite Hk; reflexivity|cbn; rewrite Hp; exact Hit].
    - apply (po_own _ _ Pg _ _ Hk Px).
    - exact (po_thing _ _ Pg _ _ Hk).
  Qed.
  Lemma kept_event s0 s e k x : wtok t s0 s -> wev_ok t e -> g_tab (wp_g (wt_p s)) k = Some x -> private_thing x = true -> ~ we_touches e k ->
    let g' := wp_g (wt_p (snd (wtstep t e s))) in
    exists x', g_tab g' k = Some x' /\ same_thing x x' /\ forall i, reading t g' k i = reading t (wp_g (wt_p s)) k i.
  Proof.
    intros K He Hk Px Nt. cbv zeta.
    assert (Same : forall s', wp_g (wt_p s') = wp_g (wt_p s) -> exists x', g_tab (wp_g (wt_p s')) k = Some x' /\ same_thing x x' /\
      forall i, reading t (wp_g (wt_p s')) k i = reading t (wp_g (wt_p s)) k i).
    { intros s' ->. exists x. split; [exact Hk|]. split; [apply same_thing_refl|auto]. }
    assert (Begin : forall tid f, wp_g (wt_p (snd f)) = wp_g (wt_p s) -> wp_g (wt_p (snd (wbegin tid s f))) = wp_g (wt_p s)).
    { intros tid f H. unfold wbegin. destruct (wt_pool s tid); [reflexivity|exact H]. }
    pose proof (event_ok t Ht s0 s e K He) as K'.
    destruct e as [c|tid mut o path|tid mut o fd|tid mut o|tid inf hint|tid j|tid]; cbn [wtstep wev_ok we_touches] in *.
    - destruct He as [Hc _]. pose proof (wtok_wpok t s0 s K) as Kp. destruct (wpstep_traced t Ht c _ Kp Hc) as (hs & T).
      destruct (wpstep t c (wt_p s)) as [y p']. cbn [snd wt_p] in *. rewrite (tr_run _ _ _ _ _ T).
      exact (kept_run t Ht hs _ k x (tr_ok _ _ _ _ _ T) (tr_touch _ _ _ _ _ T k Nt) (wk_prog _ _ Kp) Hk Px).
    - apply Same, Begin. reflexivity.
    - apply Same, Begin. reflexivity.
    - apply Same, Begin. destruct (nplan t o) as [[[off len] total]|er| | |]; reflexivity.
    - apply Same, Begin. destruct (let* len := size_round (E:=error) t (size_alloc t) hint in let* full := umul t 2 len in Ret (len, full)) as [[len full]|er| | |]; reflexivity.
    - unfold wbegin in *. destruct (wt_pool s tid) as [pd|]; [apply Same; reflexivity|]. destruct (wp_ring (wt_p s) j) as [h|]; [|apply Same; reflexivity].
      destruct (g_tab (wp_g (wt_p s)) j) as [y|] eqn:Hj; [|apply Same; reflexivity]. cbn [snd wset_pool wt_p wp_g] in *.
      assert (Hk' : g_tab (g_put (wp_g (wt_p s)) (g_s (wp_g (wt_p s))) j None) k = Some x) by (cbn; rewrite put_other by congruence; exact Hk).
      exists x. split; [exact Hk'|]. split; [apply same_thing_refl|]. intros i. pose proof (po_thing _ _ (gok_prog t _ _ _ (tk_g _ _ _ K)) _ _ Hk) as Tx.
      rewrite (reading_eq t Ht _ _ _ i Hk' Tx), (reading_eq t Ht _ _ _ i Hk Tx). reflexivity.
    - destruct (wt_pool s tid) as [pd|] eqn:Hp; [|apply Same; reflexivity]. destruct (go_ev s0 s tid pd K Hp) as (X & _ & _ & Tb & _).
      exists x. split; [exact (Tb _ _ Hk)|]. split; [apply same_thing_refl|]. exact (kept_go s0 s tid pd k x K Hp Hk Px).
  Qed.
  Lemma wtrun_cons e h s xs s2 : wtrun t (e :: h) s = (xs, s2) ->
    exists x xs', xs = x :: xs' /\ x = fst (wtstep t e s) /\ wtrun t h (snd (wtstep t e s)) = (xs', s2).
  Proof.
    cbn [wtrun]. destruct (wtstep t e s) as [x s1]. destruct (wtrun t h s1) as [xs' s'] eqn:E. intros [= <- <-]. exists x, xs'. cbn. auto.
  Qed.
  Lemma run_wtok s0 h : forall s, wtok t s0 s -> Forall (wev_ok t) h -> wtok t s0 (snd (wtrun t h s)).
  Proof.
    induction h as [|e h IH]; intros s K F; [exact K|]. apply Forall_cons_iff in F as [He F]. pose proof (IH _ (event_ok t Ht s0 s e K He) F) as R.
    cbn [wtrun]. destruct (wtstep t e s) as [x s1]. cbn [snd] in R. destruct (wtrun t h s1) as [xs s2]. exact R.
  Qed.
  Lemma run_snd e h s : snd (wtrun t (e :: h) s) = snd (wtrun t h (snd (wtstep t e s))).
  Proof. cbn [wtrun]. destruct (wtstep t e s) as [x s1]. cbn [snd]. destruct (wtrun t h s1). reflexivity. Qed.
  Lemma kept_events s0 h : forall s k x, wtok t s0 s -> Forall (wev_ok t) h -> Forall (fun e => ~ we_touches e k) h ->
    g_tab (wp_g (wt_p s)) k = Some x -> private_thing x = true ->
    let g' := wp_g (wt_p (snd (wtrun t h s))) in
    exists x', g_tab g' k = Some x' /\ same_thing x x' /\ forall i, reading t g' k i = reading t (wp_g (wt_p s)) k i.
  Proof.
    induction h as [|e h IH]; intros s k x K F N Hk Px; cbv zeta.
    - exists x. split; [exact Hk|]. split; [apply same_thing_refl|auto].
    - apply Forall_cons_iff in F as [He F], N as [Ne N]. rewrite run_snd.
      destruct (kept_event s0 s e k x K He Hk Px Ne) as (y & Hy & Sy & Ry). pose proof (same_thing_of t x y Sy) as (_ & Py & _). rewrite Px in Py.
      destruct (IH _ k y (event_ok t Ht s0 s e K He) F N Hy ltac:(congruence)) as (z & Hz & Sz & Rz). exists z. split; [exact Hz|].
      split; [|intros i; rewrite Rz; apply Ry]. clear - Sy Sz. destruct x, y, z; cbn in *; try contradiction; intuition congruence.
  Qed.

  (** ** Rings in between *)
  Lemma event_ring s0 s e k h o m : wtok t s0 s -> wev_ok t e -> wp_ring (wt_p s) k = Some h -> g_tab (wp_g (wt_p s)) k = Some (TRing (h_alloc h) o) ->
    rst t (wp_g (wt_p s)) (h_alloc h) o (g_s (wp_g (wt_p s))) m ->
    (forall c, e = WECall c -> wp_subject c <> Some k \/ (exists i, c = WICall k i /\ forall s, h <> HInf s) \/ (exists i, c = WCall k i /\ forall s, h <> HRing s)) ->
    (forall tid, e <> WEDrop tid k) ->
    let p' := wt_p (snd (wtstep t e s)) in
    wp_ring p' k = Some h /\ g_tab (wp_g p') k = Some (TRing (h_alloc h) o) /\ rst t (wp_g p') (h_alloc h) o (g_s (wp_g p')) m.
  Proof.
    intros K He Hk Hg Hr N Nd. cbv zeta. pose proof (event_ok t Ht s0 s e K He) as K'.
    assert (Reads : ~ we_touches e k -> wp_ring (wt_p (snd (wtstep t e s))) k = Some h -> wp_ring (wt_p (snd (wtstep t e s))) k = Some h /\
      g_tab (wp_g (wt_p (snd (wtstep t e s)))) k = Some (TRing (h_alloc h) o) /\
      rst t (wp_g (wt_p (snd (wtstep t e s)))) (h_alloc h) o (g_s (wp_g (wt_p (snd (wtstep t e s))))) m).
    { intros Nt Hk'. split; [exact Hk'|]. destruct (kept_event s0 s e k _ K He Hg eq_refl Nt) as ([v'|r' o'] & Hg' & Sx & Rd); [contradiction Sx|].
      destruct Sx as [S1 S2]. subst r' o'. split; [exact Hg'|]. pose proof (gok_prog t _ _ _ (tk_g _ _ _ K)) as Pg. pose proof (gok_prog t _ _ _ (tk_g _ _ _ K')) as Pg'.
      split; [destruct (wp_g (wt_p (snd (wtstep t e s)))); exact Pg'|]. intros v Hv. specialize (Rd v).
      rewrite (ring_reading t Ht _ _ _ _ _ Pg Hg Hv), (ring_reading t Ht _ _ _ _ _ Pg' Hg' Hv) in Rd. injection Rd as ->. apply Hr, Hv. }
    assert (Begin : forall tid f, wp_ring (wt_p (snd f)) k = Some h -> wp_ring (wt_p (snd (wbegin tid s f))) k = Some h).
    { intros tid f H. unfold wbegin. destruct (wt_pool s tid); [exact Hk|exact H]. }
    destruct e as [c|tid mut o' path|tid mut o' fd|tid mut o'|tid inf hint|tid j|tid]; cbn [wtstep wev_ok we_touches] in *.
    - destruct He as [Hc _]. destruct (wother_step t Ht c _ k h o m (wtok_wpok t s0 s K) Hc Hk Hg Hr (N c eq_refl)) as (_ & R).
      destruct (wpstep t c (wt_p s)) as [y p']. exact R.
    - apply Reads; [auto|apply Begin, Hk].
    - apply Reads; [auto|apply Begin, Hk].
    - apply Reads; [auto|]. apply Begin. destruct (nplan t o') as [[[off len] total]|er| | |]; exact Hk.
    - apply Reads; [auto|]. apply Begin.
      destruct (let* len := size_round (E:=error) t (size_alloc t) hint in let* full := umul t 2 len in Ret (len, full)) as [[len full]|er| | |]; exact Hk.
    - apply Reads; [intros ->; exact (Nd tid eq_refl)|]. apply Begin. destruct (wp_ring (wt_p s) j) as [hj|]; [|exact Hk].
      destruct (g_tab (wp_g (wt_p s)) j); [|exact Hk]. cbn. rewrite put_other; [exact Hk|]. intros ->. exact (Nd tid eq_refl).
    - apply Reads; [auto|]. destruct (wt_pool s tid) as [pd|] eqn:Hp; [|exact Hk]. destruct (go_ev s0 s tid pd K Hp) as (X & _ & _ & _ & Rg). exact (Rg _ _ Hk).
  Qed.
  Lemma wering_history s0 h : forall p xs p2 k s o m T R acc, wtok t s0 p -> Forall (wev_ok t) h -> wtrun t h p = (xs, p2) ->
    wp_ring (wt_p p) k = Some (HRing s) -> g_tab (wp_g (wt_p p)) k = Some (TRing (h_alloc (HRing s)) o) ->
    rst t (wp_g (wt_p p)) (h_alloc (HRing s)) o (g_s (wp_g (wt_p p))) m -> inv t (abs s m) T R -> T <= acc ->
    history_ok t acc (k_len s) (wcalls_on k (wecalls h)) ->
    q_answers (absq (abs s m) T R) (wcalls_on k (wecalls h)) (wanswers_on k (wecalls h) (weresults h xs)).
  Proof.
    induction h as [|e h IH]; intros p xs p2 k s o m T R acc K F E Hk Hg H I HT Ho.
    - injection E as <- <-. constructor.
    - apply Forall_cons_iff in F as [CO F]. apply wtrun_cons in E as (x & xs' & -> & Ex & E). pose proof (event_ok t Ht s0 p e K CO) as K1.
      assert (Other : (forall c, e = WECall c -> wp_subject c <> Some k \/ (exists i, c = WICall k i)) -> (forall tid, e <> WEDrop tid k) ->
        history_ok t acc (k_len s) (wcalls_on k (wecalls h)) -> q_answers (absq (abs s m) T R) (wcalls_on k (wecalls h)) (wanswers_on k (wecalls h) (weresults h xs'))).
      { intros N Nd Ho'. destruct (event_ring s0 p e k _ o m K CO Hk Hg H) as (Hk1 & Hg1 & H1).
        { intros c Ec. destruct (N c Ec) as [Nc|(i & Nc)]; [left; exact Nc|right; left]. exists i. split; [exact Nc|discriminate]. }
        { exact Nd. }
        exact (IH _ _ _ _ _ _ _ _ _ _ K1 F E Hk1 Hg1 H1 I HT Ho'). }
      destruct e as [c|tid mut o' path|tid mut o' fd|tid mut o'|tid inf hint|tid j|tid].
      + assert (Xc : exists x', x = WTCall x' /\ x' = fst (wpstep t c (wt_p p))).
        { rewrite Ex. cbn [wtstep]. destruct (wpstep t c (wt_p p)) as [y p']. cbn. eauto. }
        destruct Xc as (x' & -> & Ex'). clear Ex. cbn [wecalls weresults]. destruct c as [a|hint|hint|k2 c|k2 c|k2]; cbn [wcalls_on wanswers_on wecalls] in *.
        * apply Other; auto; [intros c [= <-]; left; discriminate|discriminate].
        * apply Other; auto; [intros c [= <-]; left; discriminate|discriminate].
        * apply Other; auto; [intros c [= <-]; left; discriminate|discriminate].
        * destruct (Z.eqb_spec k2 k) as [->|N]; [|apply Other; auto; [intros c' [= <-]; left; cbn; congruence|discriminate]].
          cbn [history_ok] in Ho. destruct Ho as (Hc & Hpos & Ho). cbn [wtstep] in *. destruct CO as [CO _]. cbn [wpstep] in *. rewrite Hk in *.
          pose proof (wtok_wpok t s0 p K) as Kp. destruct (wk_ring _ _ Kp _ _ Hk) as (Fs & _).
          pose proof (wring_call_spec t Ht (wp_g (wt_p p)) k _ o Hg s (g_s (wp_g (wt_p p))) m c eq_refl Fs H Hc) as A. unfold agrees, agr in A.
          destruct (step_sim t HB (abs s m) T R c acc I HT Hc Hpos) as [[Q _]|[NQ (r' & y & T' & R' & Er & I' & HT' & Qs & El)]].
          -- rewrite (ring_panics_any t HB win (wpeek t) (wpoke t) s (g_s (wp_g (wt_p p))) m T R c I Hc Q) in *. cbn [fst snd] in *. subst x'. cbn [wring_answer app].
             apply qa_panic; [exact Q|].
             refine (IH _ _ _ _ s o m T R (next_total acc (k_len s) c) K1 F E _ Hg H I _ Ho).
             ++ cbn. apply put_same.
             ++ destruct c; try (exfalso; exact Q); cbn; [lia|]. pose proof (zlen_nonneg b). pose proof (inv_len _ _ _ _ I). cbn in *. lia.
          -- rewrite Er in A. destruct A as (s' & w' & Es & Eabs & Fs' & Rg & O). rewrite Es in *. cbn [fst snd] in *. subst x'. cbn [wring_answer app].
             apply (qa_ok _ _ _ (absq r' T' R')); [exact NQ|exact Qs|]. pose proof Fs' as (E1 & E2 & _).
             assert (Ea : h_alloc (HRing s') = h_alloc (HRing s)) by (cbn; rewrite E1, E2; reflexivity).
             rewrite Eabs in I' |- *. refine (IH _ _ _ _ s' o (r_mem r') T' R' (next_total acc (k_len s) c) K1 F E _ _ _ I' HT' _).
             ++ cbn. apply put_same.
             ++ rewrite Ea. exact Hg.
             ++ rewrite Ea. exact Rg.
             ++ rewrite E2. exact Ho.
        * destruct (Z.eqb_spec k2 k) as [->|N]; [|apply Other; auto; [intros c' [= <-]; left; cbn; congruence|discriminate]].
          assert (X : wring_answer x' = []) by (cbn [wpstep] in Ex'; rewrite Hk in Ex'; subst x'; reflexivity). rewrite X. cbn [app].
          apply Other; auto; [intros c' [= <-]; right; eauto|discriminate].
        * destruct CO as [_ CO]. discriminate CO.
      + cbn [wecalls weresults] in *. apply Other; auto; discriminate.
      + cbn [wecalls weresults] in *. apply Other; auto; discriminate.
      + cbn [wecalls weresults] in *. apply Other; auto; discriminate.
      + cbn [wecalls weresults] in *. apply Other; auto; discriminate.
      + cbn [wecalls weresults wcalls_on wanswers_on] in *. destruct (Z.eqb_spec j k) as [->|N]; [constructor|].
        apply Other; auto; [discriminate|]. intros i [= _ E']. exact (N E').
      + cbn [wecalls weresults] in *. apply Other; auto; discriminate.
  Qed.
  Lemma weinf_history s0 h : forall p xs p2 k s o m T acc, wtok t s0 p -> Forall (wev_ok t) h -> wtrun t h p = (xs, p2) ->
    wp_ring (wt_p p) k = Some (HInf s) -> g_tab (wp_g (wt_p p)) k = Some (TRing (h_alloc (HInf s)) o) ->
    rst t (wp_g (wt_p p)) (h_alloc (HInf s)) o (g_s (wp_g (wt_p p))) m -> iinv t (iabs s m) T -> T <= acc ->
    ihistory_ok t acc (ki_len s) (wicalls_on k (wecalls h)) ->
    lq_answers (abst (iabs s m) T) (wicalls_on k (wecalls h)) (wanswers_on k (wecalls h) (weresults h xs)).
  Proof.
    induction h as [|e h IH]; intros p xs p2 k s o m T acc K F E Hk Hg H I HT Ho.
    - injection E as <- <-. constructor.
    - apply Forall_cons_iff in F as [CO F]. apply wtrun_cons in E as (x & xs' & -> & Ex & E). pose proof (event_ok t Ht s0 p e K CO) as K1.
      assert (Other : (forall c, e = WECall c -> wp_subject c <> Some k \/ (exists i, c = WCall k i)) -> (forall tid, e <> WEDrop tid k) ->
        ihistory_ok t acc (ki_len s) (wicalls_on k (wecalls h)) -> lq_answers (abst (iabs s m) T) (wicalls_on k (wecalls h)) (wanswers_on k (wecalls h) (weresults h xs'))).
      { intros N Nd Ho'. destruct (event_ring s0 p e k _ o m K CO Hk Hg H) as (Hk1 & Hg1 & H1).
        { intros c Ec. destruct (N c Ec) as [Nc|(i & Nc)]; [left; exact Nc|right; right]. exists i. split; [exact Nc|discriminate]. }
        { exact Nd. }
        exact (IH _ _ _ _ _ _ _ _ _ K1 F E Hk1 Hg1 H1 I HT Ho'). }
      destruct e as [c|tid mut o' path|tid mut o' fd|tid mut o'|tid inf hint|tid j|tid].
      + assert (Xc : exists x', x = WTCall x' /\ x' = fst (wpstep t c (wt_p p))).
        { rewrite Ex. cbn [wtstep]. destruct (wpstep t c (wt_p p)) as [y p']. cbn. eauto. }
        destruct Xc as (x' & -> & Ex'). clear Ex. cbn [wecalls weresults]. destruct c as [a|hint|hint|k2 c|k2 c|k2]; cbn [wicalls_on wanswers_on wecalls] in *.
        * apply Other; auto; [intros c [= <-]; left; discriminate|discriminate].
        * apply Other; auto; [intros c [= <-]; left; discriminate|discriminate].
        * apply Other; auto; [intros c [= <-]; left; discriminate|discriminate].
        * destruct (Z.eqb_spec k2 k) as [->|N]; [|apply Other; auto; [intros c' [= <-]; left; cbn; congruence|discriminate]].
          assert (X : wring_answer x' = []) by (cbn [wpstep] in Ex'; rewrite Hk in Ex'; subst x'; reflexivity). rewrite X. cbn [app].
          apply Other; auto; [intros c' [= <-]; right; eauto|discriminate].
        * destruct (Z.eqb_spec k2 k) as [->|N]; [|apply Other; auto; [intros c' [= <-]; left; cbn; congruence|discriminate]].
          cbn [ihistory_ok] in Ho. destruct Ho as (Hc & Hpos & Ho). cbn [wtstep] in *. destruct CO as [CO _]. cbn [wpstep] in *. rewrite Hk in *.
          pose proof (wtok_wpok t s0 p K) as Kp. destruct (wk_ring _ _ Kp _ _ Hk) as (Fs & _).
          pose proof (winf_call_spec t Ht (wp_g (wt_p p)) k _ o Hg s (g_s (wp_g (wt_p p))) m c eq_refl Fs H CO) as A. unfold iagrees, agr in A.
          destruct (istep_sim t HB (iabs s m) T c acc I HT Hc Hpos) as [[Q _]|[NQ (r' & y & T' & Er & I' & HT' & Qs & El)]].
          -- rewrite (inf_panics_any t HB win (wpeek t) (wpoke t) s (g_s (wp_g (wt_p p))) m T c I CO Q) in *. cbn [fst snd] in *. subst x'. cbn [wring_answer app].
             apply la_panic; [exact Q|].
             refine (IH _ _ _ _ s o m T (acc + irop_weight (ki_len s) c) K1 F E _ Hg H I _ Ho).
             ++ cbn. apply put_same.
             ++ destruct c; try (exfalso; exact Q); cbn; lia.
          -- rewrite Er in A. destruct A as (s' & w' & Es & Eabs & Fs' & Rg & O). rewrite Es in *. cbn [fst snd] in *. subst x'. cbn [wring_answer app].
             apply (la_ok _ _ _ (abst r' T')); [exact NQ|exact Qs|]. pose proof Fs' as (E1 & E2 & _).
             assert (Ea : h_alloc (HInf s') = h_alloc (HInf s)) by (cbn; rewrite E1, E2; reflexivity).
             rewrite Eabs in I' |- *. refine (IH _ _ _ _ s' o (i_mem r') T' (acc + irop_weight (ki_len s) c) K1 F E _ _ _ I' HT' _).
             ++ cbn. apply put_same.
             ++ rewrite Ea. exact Hg.
             ++ rewrite Ea. exact Rg.
             ++ rewrite E2. exact Ho.
        * destruct CO as [_ CO]. discriminate CO.
      + cbn [wecalls weresults] in *. apply Other; auto; discriminate.
      + cbn [wecalls weresults] in *. apply Other; auto; discriminate.
      + cbn [wecalls weresults] in *. apply Other; auto; discriminate.
      + cbn [wecalls weresults] in *. apply Other; auto; discriminate.
      + cbn [wecalls weresults wicalls_on wanswers_on] in *. destruct (Z.eqb_spec j k) as [->|N]; [constructor|].
        apply Other; auto; [discriminate|]. intros i [= _ E']. exact (N E').
      + cbn [wecalls weresults] in *. apply Other; auto; discriminate.
  Qed.
End Claims.
