(** Proofs for ProcLedgerSpec.v. *)
From Coq Require Import Lia.
From Verif Require Import Base Spec ErrorModel RingSpec SizeModel SizeProofs OsModel MapModel MapSpec OsProofs MapProofs MapCreate MapOps
  ApiModel ApiSpec ApiProofs RingMapModel RingMapSpec MirrorProofs RingMapClaims MemRingModel
  ProcModel ProcSpec ProcFrame ProcProofs ProcPages MachModel MachSpec MachClaims MachProcModel MachProcSpec MachProcProofs MachProcClaims ProcLedgerSpec.

Section Ledger.
  Variable t : target.
  Variable plat : platform.
  Hypothesis Ht : posix_target t.
  Notation P := (t_page t).
  Let Hg : good_target t := proj1 Ht.
  Let HP : 0 < P.
  Proof. exact (pow2_pos _ (proj1 (proj2 Hg))). Qed.

  Lemma says_no_dec w : says_no w \/ exists x q, w_orc w = Grant x :: q.
  Proof. unfold says_no. destruct (w_orc w) as [|[e|x] q]; eauto. Qed.
  Lemma ceil_exists hint : exists len, is_ceil (t_alloc t) hint len.
  Proof.
    pose proof Hg as (_ & _ & Ha & _). pose proof (pow2_pos _ Ha) as Ha0. exists (rup (t_alloc t) hint).
    pose proof (rup_spec (t_alloc t) hint Ha0) as [R1 R2]. split; [exact R1|]. split; [lia|]. intros r H1 H2. exact (rup_least _ _ _ Ha0 H1 H2).
  Qed.
  Lemma balanced_ext (B B' : Z -> Prop) p : (forall pg, B' pg <-> B pg) -> balanced t B p -> balanced t B' p.
  Proof. intros E [B1 B2]. split; intros pg; [rewrite E; apply B1|]. intros H. apply B2, E, H. Qed.
  Lemma balanced_or_false (B L : Z -> Prop) p : (forall pg, ~ L pg) -> balanced t B p -> balanced t (fun pg => B pg \/ L pg) p.
  Proof. intros E. apply balanced_ext. intros pg. specialize (E pg). tauto. Qed.

  (** The pages of [X] are no longer held; those of [Y] stay mapped. *)
  Lemma balanced_shed (B X Y : Z -> Prop) p p' : balanced t B p ->
    (forall pg, X pg \/ ~ X pg) -> (forall pg, X pg -> Y pg \/ ~ Y pg) -> (forall pg, Y pg -> X pg) -> (forall pg, X pg -> holds_page t p pg) ->
    (forall pg, holds_page t p' pg <-> holds_page t p pg /\ ~ X pg) ->
    (forall pg, X pg -> ~ Y pg -> w_vm (pc_w p') pg = None) -> (forall pg, ~ X pg \/ Y pg -> w_vm (pc_w p') pg = w_vm (pc_w p) pg) ->
    balanced t (fun pg => B pg \/ Y pg) p'.
  Proof.
    intros [B1 B2] DX DY YX XH Ho V1 V2. split.
    - intros pg. rewrite Ho. destruct (DX pg) as [Hx|Nx].
      + destruct (DY pg Hx) as [Hy|Ny].
        * rewrite V2 by auto. rewrite (B1 pg). specialize (XH pg Hx). tauto.
        * rewrite V1 by auto. split; [congruence|]. intros [[Hb|Hy]|[_ N]]; try contradiction. destruct (B2 pg Hb (XH pg Hx)).
      + rewrite V2 by auto. rewrite (B1 pg). specialize (YX pg). tauto.
    - intros pg [Hb|Hy] Hp; apply Ho in Hp as [Hp N]; [exact (B2 pg Hb Hp)|]. exact (N (YX pg Hy)).
  Qed.

  (** ** Drops *)
  Lemma shed_map p a' k l : pok t p -> a_live (pc_a p) k = Some l -> a_live a' = put (a_live (pc_a p)) k None ->
    forall pg, holds_page t {| pc_a := a'; pc_ring := pc_ring p; pc_cnt := pc_cnt p |} pg <-> holds_page t p pg /\ ~ own_page t (l_map l) pg.
  Proof.
    intros [A C R RR RM] Hl L' pg. unfold holds_page. cbn [pc_ring pc_a]. rewrite L'. split.
    - intros [(k2 & h & Hk & Hp)|(k2 & l2 & Hk & Hp)].
      + split; [left; eauto|]. intros Ho. exact (RM _ _ _ _ _ Hk Hl Hp Ho).
      + unfold put in Hk. destruct (Z.eqb_spec k2 k) as [->|Nk]; [discriminate Hk|]. split; [right; eauto|].
        intros Ho. exact (ok_apart _ _ A _ _ _ _ _ Hk Hl Nk Hp Ho).
    - intros [[Hr|(k2 & l2 & Hk & Hp)] No]; [left; exact Hr|right]. exists k2, l2. rewrite put_other; [auto|]. intros ->. congruence.
  Qed.
  Lemma shed_ring p w' k h : pok t p -> pc_ring p k = Some h ->
    forall pg, holds_page t (pc_put p w' k None) pg <-> holds_page t p pg /\ ~ ring_page t h pg.
  Proof.
    intros [A C R RR RM] Hk pg. unfold holds_page, pc_put. cbn [pc_ring pc_a set_w a_live]. split.
    - intros [(k2 & h2 & H2 & Hp)|(k2 & l2 & H2 & Hp)].
      + unfold put in H2. destruct (Z.eqb_spec k2 k) as [->|Nk]; [discriminate H2|]. split; [left; eauto|].
        intros Ho. exact (RR _ _ _ _ _ H2 Hk Nk Hp Ho).
      + split; [right; eauto|]. intros Ho. exact (RM _ _ _ _ _ Hk H2 Ho Hp).
    - intros [[(k2 & h2 & H2 & Hp)|Hm] No]; [left|right; exact Hm]. exists k2, h2. rewrite put_other; [auto|]. intros ->. congruence.
  Qed.

  Lemma map_drop_exact k l a r a' : api_ok t a -> a_live a k = Some l -> step t (CDrop k) a = (r, a') ->
    a_live a' = put (a_live a) k None /\
    (m_len (l_map l) = 0 \/ says_no (a_w a) -> w_vm (a_w a') = w_vm (a_w a)) /\
    (~ (m_len (l_map l) = 0 \/ says_no (a_w a)) ->
      (forall pg, own_page t (l_map l) pg -> w_vm (a_w a') pg = None) /\
      (forall pg, ~ own_page t (l_map l) pg -> w_vm (a_w a') pg = w_vm (a_w a) pg)).
  Proof.
    intros A Hl E. pose proof (ok_live _ _ A _ _ Hl) as B. cbn [step] in E. unfold with_map in E. rewrite Hl in E.
    destruct (drop_map t (l_map l) (a_w a)) as [r1 w1] eqn:Ed. pose proof (MapOps.drop_spec t Ht _ _ _ _ _ _ _ _ _ B Ed) as [-> D].
    injection E as _ <-. split; [reflexivity|]. cbn [put_live a_w].
    assert (Hc : 0 < page_count t (l_map l) \/ m_len (l_map l) <= 0).
    { unfold page_count. pose proof (npages_bounds t HP (m_ptr (l_map l) mod P + m_len (l_map l))). pose proof (bk_cnt _ _ _ _ _ _ _ B). nia. }
    split.
    - intros Z0. destruct D as [[Q _]|(Lp & _ & D1 & D2)]; [exact (q_vm _ _ Q)|]. destruct Z0 as [Z0|Z0]; [lia|].
      unfold drop_map in Ed. rewrite (proj2 (Z.ltb_lt 0 _) Lp) in Ed. destruct (size_bounds _ _ _ _) as [[a0 n0]|?| | |]; try discriminate Ed.
      revert Ed. unfold os_unmap, os_call, sys_munmap, ask. unfold says_no in Z0. destruct (w_orc (a_w a)) as [|[e|x] q]; try contradiction; intros Ed; injection Ed as <-; reflexivity.
    - intros N. destruct D as [[Q [D|(x & D1 & D2)]]|(_ & _ & D)]; [tauto| |exact D]. exfalso.
      destruct (says_no_dec (a_w a)) as [S1|(y & q & Eo)]; [tauto|]. pose proof (bk_len _ _ _ _ _ _ _ B).
      destruct (munmap_grant t Ht (first_page t (l_map l)) (page_count t (l_map l)) _ y q ltac:(lia) Eo) as (w2 & E2). rewrite E2 in D2. discriminate D2.
  Qed.

  Lemma home_drop_exact w h n o m r w' : at_home t w h n o m -> ring_drop t (h_alloc h) w = (r, w') ->
    (says_no w -> w_vm w' = w_vm w) /\
    (~ says_no w -> (forall pg, ring_page t h pg -> w_vm w' pg = None) /\ (forall pg, ~ ring_page t h pg -> w_vm w' pg = w_vm w pg)).
  Proof.
    intros H E. pose proof (home_drop t Ht _ _ _ _ _ _ _ H E) as (_ & _ & _ & _ & _ & D). split.
    - intros N. destruct D as [((x & D) & _)|[_ D]]; [|exact D]. unfold says_no in N. rewrite D in N. contradiction.
    - intros N. destruct (says_no_dec w) as [|(y & q & Eo)]; [contradiction|]. destruct D as [(_ & D)|[_ D]]; [exact D|]. exfalso.
      pose proof H as [L R _ Lo Hi]. pose proof (fun x => page_iff t Ht _ _ _ _ _ x H) as I. pose proof (fun x => home_entry t Ht _ _ _ _ _ x H) as He.
      destruct (h_alloc h) as [pg len] eqn:Ea. cbn [ra_ptr ra_len] in *.
      pose proof (rg_n _ _ _ _ _ _ R) as Hn. pose proof (bits_half t Hg) as [HB _].
      unfold ring_drop, ignore, unmap_ring, sbind in E. cbn [sout ra_ptr ra_len] in E.
      assert (Bd : 0 < 2 * len < 2 ^ t_bits t) by nia.
      assert (M2 : umul (E:=error) t 2 len = Ret (2 * len)) by (unfold umul; rewrite wrap_in by lia; reflexivity).
      rewrite M2 in E. unfold os_unmap, os_call, sys_munmap, ask in E. rewrite Eo, (rg_align _ _ _ _ _ _ R) in E.
      rewrite (proj2 (Z.leb_gt (2 * len) 0)) in E by lia. cbn [Z.eqb negb orb] in E. injection E as _ <-. cbn [w_vm set_vm set_orc] in D.
      destruct (He (pg / P) ltac:(apply I; lia)) as (e & Hv & _). apply (f_equal (fun f => f (pg / P))) in D. rewrite Hv in D.
      rewrite in_pages_yes in D; [discriminate D|]. split; [lia|]. change (pg / P < pg / P + npages t (2 * len)). enough (0 < npages t (2 * len)) by lia. rewrite L.
      replace (2 * (P * n)) with (P * (2 * n)) by lia. rewrite (npages_mul t HP). lia.
  Qed.

  Lemma mach_drop_exact s h n o m r s' : at_home t (mc_w s) h n o m -> mach_ring_drop t (h_alloc h) s = (r, s') ->
    (says_no (mc_w s) -> w_vm (mc_w s') = w_vm (mc_w s)) /\
    (~ says_no (mc_w s) -> (forall pg, ring_page t h pg -> w_vm (mc_w s') pg = None) /\
                           (forall pg, ~ ring_page t h pg -> w_vm (mc_w s') pg = w_vm (mc_w s) pg)).
  Proof.
    intros H E. pose proof (mach_home_drop t Ht _ _ _ _ _ _ _ H E) as (_ & _ & _ & _ & _ & _ & D).
    pose proof H as [L R _ Lo Hi]. pose proof (fun x => page_iff t Ht _ _ _ _ _ x H) as I. pose proof (fun x => home_entry t Ht _ _ _ _ _ x H) as He.
    destruct (h_alloc h) as [pg len] eqn:Ea. cbn [ra_ptr ra_len] in *.
    pose proof (rg_n _ _ _ _ _ _ R) as Hn. pose proof (bits_half t Hg) as [HB _].
    unfold mach_ring_drop, mach_unmap_ring, mbind in E. cbn [mout ra_ptr ra_len] in E.
    assert (Bd : 0 < 2 * len < 2 ^ t_bits t) by nia.
    assert (M2 : umul (E:=error) t 2 len = Ret (2 * len)) by (unfold umul; rewrite wrap_in by lia; reflexivity).
    rewrite M2 in E. unfold kern_call, on_world, vm_deallocate, ask in E. split.
    - intros N. unfold says_no in N. destruct (w_orc (mc_w s)) as [|[e|x] q]; try contradiction; injection E as _ <-; reflexivity.
    - intros N. destruct (says_no_dec (mc_w s)) as [|(y & q & Eo)]; [contradiction|]. destruct D as [D|[_ D]]; [exact D|]. exfalso.
      rewrite Eo in E. rewrite (proj2 (Z.eqb_neq (2 * len) 0)) in E by lia. injection E as _ <-. cbn [mc_w w_vm set_vm set_orc] in D.
      destruct (He (pg / P) ltac:(apply I; lia)) as (e & Hv & _). apply (f_equal (fun f => f (pg / P))) in D. rewrite Hv in D.
      rewrite in_pages_yes in D; [discriminate D|]. split; [lia|]. change (pg / P < pg / P + npages t (pg mod P + 2 * len)). rewrite (rg_align _ _ _ _ _ _ R), Z.add_0_l. enough (0 < npages t (2 * len)) by lia. rewrite L.
      replace (2 * (P * n)) with (P * (2 * n)) by lia. rewrite (npages_mul t HP). lia.
  Qed.

  Lemma shed_home B p w' k h : pok t p -> balanced t B p -> pc_ring p k = Some h -> (says_no (pc_w p) -> w_vm w' = w_vm (pc_w p)) ->
    (~ says_no (pc_w p) -> (forall pg, ring_page t h pg -> w_vm w' pg = None) /\ (forall pg, ~ ring_page t h pg -> w_vm w' pg = w_vm (pc_w p) pg)) ->
    balanced t (fun pg => B pg \/ exists h0, Some h = Some h0 /\ ring_page t h0 pg /\ says_no (pc_w p)) (pc_put p w' k None).
  Proof.
    intros K Bl Hk Y N.
    apply balanced_ext with (B := fun pg => B pg \/ (ring_page t h pg /\ says_no (pc_w p))).
    { intros pg. split; [intros [H|(l2 & Q & H)]; [auto|injection Q as ->; auto]|]. intros [H|H]; eauto. }
    assert (Dn : says_no (pc_w p) \/ ~ says_no (pc_w p)).
    { destruct (says_no_dec (pc_w p)) as [|(x & q & Eo)]; [tauto|]. right. intros Q. unfold says_no in Q. rewrite Eo in Q. exact Q. }
    apply (balanced_shed B (ring_page t h) _ p _ Bl); try (intros pg; unfold ring_page, ring_addr; lia || tauto).
    - intros pg Ho. left. eauto.
    - intros pg. apply (shed_ring p w' k h K Hk).
    - intros pg Ho Ny. destruct Dn as [Dn|Dn]; [tauto|]. apply (N Dn), Ho.
    - intros pg Hd. change (w_vm w' pg = w_vm (pc_w p) pg). destruct Dn as [Dn|Dn]; [rewrite (Y Dn); reflexivity|]. apply (N Dn). tauto.
  Qed.

  (** ** Attempts *)
  Lemma ring_failed_range clock hint w e w' : wf w -> is_usize t hint -> ring_new t plat clock hint w = (Err e, w') ->
    (forall pg, w_vm w' pg = w_vm w pg) \/
    ((e_op e = RingPrimary \/ e_op e = RingSecondary) /\ refused_last w w' /\ exists len, is_ceil (t_alloc t) hint len /\ left_mapped t w w' len).
  Proof.
    intros W Hh E. unfold ring_new, sbind, sout in E. pose proof (round_cases t Hg hint Hh) as Rc.
    destruct (size_round t (size_alloc t) hint) as [len|x| | |]; try contradiction Rc; try discriminate E.
    destruct (map_ring t plat clock len w) as [r1 w1] eqn:Em. apply (map_ring_spec t Hg plat clock) in Em; [|exact W|apply Rc].
    destruct r1 as [b|x| | |]; try discriminate E. injection E as -> ->. destruct Em as (_ & _ & _ & _ & _ & [V|(Op & Rf & Lf)]); [auto|].
    destruct Rc as [Rl Rc]. unfold is_usize in Rl. destruct (Z.eq_dec len 0) as [->|Nz].
    - left. destruct Lf as (first & _ & V). intros pg. apply V. rewrite Z.mul_0_r. pose proof (npages_bounds t HP 0). nia.
    - right. split; [exact Op|]. split; [exact Rf|]. exists len. split; [apply Rc; lia|exact Lf].
  Qed.
  (** More is mapped, and all of it was free. *)
  Lemma balanced_more B p w' len : balanced t B p -> (forall pg, w_vm w' pg = w_vm (pc_w p) pg) \/ left_mapped t (pc_w p) w' len ->
    balanced t (fun pg => B pg \/ w_vm (pc_w p) pg = None /\ w_vm w' pg <> None) (pc_set_w p w').
  Proof.
    intros [B1 B2] V.
    assert (Sub : forall pg, w_vm (pc_w p) pg <> None -> w_vm w' pg = w_vm (pc_w p) pg).
    { intros pg N. destruct V as [V|(f & V1 & V2)]; [apply V|]. apply V2. intros J. exact (N (V1 pg J)). }
    split.
    - intros pg. change (pc_w (pc_set_w p w')) with w'. change (holds_page t (pc_set_w p w') pg) with (holds_page t p pg).
      specialize (B1 pg). specialize (Sub pg). destruct (w_vm (pc_w p) pg) as [x|].
      + rewrite Sub by discriminate. split; [|discriminate]. intros _. destruct (proj1 B1 ltac:(discriminate)); auto.
      + split; [auto|]. intros [[Hb|[_ Hn]]|Hh]; [|exact Hn|]; destruct (proj2 B1 ltac:(auto) eq_refl).
    - intros pg [Hb|[N _]] Hh; [exact (B2 pg Hb Hh)|]. change (holds_page t p pg) in Hh. exact (proj2 (B1 pg) (or_intror Hh) N).
  Qed.

  Lemma ledger_step B c p : pok t p -> pcall_ok t c -> balanced t B p ->
    balanced t (fun pg => B pg \/ lost t c p (fst (pstep t plat c p)) (snd (pstep t plat c p)) pg) (snd (pstep t plat c p)).
  Proof.
    intros K CO Bl. pose proof K as [A C R RR RM]. pose proof (ok_wf _ _ A) as W.
    assert (Td : tidy t plat c p -> (forall pg, ~ lost t c p (fst (pstep t plat c p)) (snd (pstep t plat c p)) pg) ->
      balanced t (fun pg => B pg \/ lost t c p (fst (pstep t plat c p)) (snd (pstep t plat c p)) pg) (snd (pstep t plat c p))).
    { intros T N. apply balanced_or_false; [exact N|]. apply balanced_step; assumption. }
    assert (New : forall mk hint clock, is_usize t hint -> (forall pg len, h_alloc (mk pg len) = {| ra_ptr := pg; ra_len := len |}) ->
      balanced t (fun pg => B pg \/ (exists e, fst (new_ring t plat mk hint clock p) = ANew (Err e)) /\ w_vm (pc_w p) pg = None /\
        w_vm (pc_w (snd (new_ring t plat mk hint clock p))) pg <> None) (snd (new_ring t plat mk hint clock p))).
    { intros mk hint clock Hh M. unfold new_ring in *. destruct (ring_new t plat clock hint (pc_w p)) as [r w'] eqn:E.
      destruct r as [b|e| | |]; cbn [fst snd].
      - apply balanced_or_false; [intros pg [(e & Q) _]; discriminate Q|].
        assert (Ea : h_alloc (mk (ra_ptr b) (ra_len b)) = b) by (rewrite M; destruct b; reflexivity).
        destruct (new_home t plat Ht _ _ _ _ _ _ W Hh E Ea) as (_ & _ & _ & Fr & Ot & n & H).
        exact (balanced_new t Ht B p w' _ _ _ _ K Bl Fr Ot H).
      - apply balanced_ext with (B := fun pg => B pg \/ w_vm (pc_w p) pg = None /\ w_vm w' pg <> None).
        + intros pg. change (pc_w (pc_set_w p w')) with w'. split; [tauto|]. intros [H|H]; [auto|]. right. split; [eauto|exact H].
        + destruct (ring_failed_range _ _ _ _ _ W Hh E) as [V|(_ & _ & len & _ & V)]; [apply (balanced_more B p w' 0)|apply (balanced_more B p w' len)]; auto.
      - apply balanced_or_false; [intros pg [(e & Q) _]; discriminate Q|].
        apply balanced_same; [|exact Bl]. destruct (ring_new_spec t Hg plat clock hint _ _ _ W Hh E) as [_ [Q _]]. rewrite (q_vm _ _ Q). reflexivity.
      - destruct (ring_new_spec t Hg plat clock hint _ _ _ W Hh E) as [_ []].
      - destruct (ring_new_spec t Hg plat clock hint _ _ _ W Hh E) as [_ []]. }
    destruct c as [c|hint clock|hint clock|k c|k c|k].
    - assert (Dc : (exists k, c = CDrop k) \/ forall k, c <> CDrop k) by (destruct c; try (right; discriminate); eauto).
      destruct Dc as [(k & ->)|Nd].
      2:{ apply Td; [unfold tidy; destruct (pstep _ _ _ _); destruct c; auto; destruct (Nd k eq_refl)|]. intros pg H. destruct c; try exact H. destruct (Nd k eq_refl). }
      cbn [pstep lost]. destruct (step t (CDrop k) (pc_a p)) as [r a'] eqn:E. cbn [fst snd].
      destruct (a_live (pc_a p) k) as [l|] eqn:Hl.
      2:{ cbn [step] in E. unfold with_map in E. rewrite Hl in E. injection E as _ <-. apply balanced_or_false; [intros pg (l & Q & _); discriminate Q|]. destruct p; exact Bl. }
      destruct (map_drop_exact _ _ _ _ _ A Hl E) as (L' & Y & N). change (a_w (pc_a p)) with (pc_w p) in *.
      apply balanced_ext with (B := fun pg => B pg \/ (own_page t (l_map l) pg /\ (m_len (l_map l) = 0 \/ says_no (pc_w p)))).
      { intros pg. split; [intros [H|(l2 & Q & H)]; [auto|injection Q as ->; auto]|]. intros [H|H]; eauto. }
      assert (Dn : (m_len (l_map l) = 0 \/ says_no (pc_w p)) \/ ~ (m_len (l_map l) = 0 \/ says_no (pc_w p))).
      { destruct (Z.eq_dec (m_len (l_map l)) 0); [tauto|]. destruct (says_no_dec (pc_w p)) as [|(x & q & Eo)]; [tauto|]. right. intros [?|Q]; [contradiction|]. unfold says_no in Q. rewrite Eo in Q. exact Q. }
      apply (balanced_shed B (own_page t (l_map l)) _ p _ Bl); try (intros pg; unfold own_page; lia || tauto).
      + intros pg Ho. right. eauto.
      + intros pg. apply (shed_map p a' k l K Hl L').
      + intros pg Ho Ny. destruct Dn as [Dn|Dn]; [tauto|]. apply (N Dn), Ho.
      + intros pg Hd. change (w_vm (a_w a') pg = w_vm (pc_w p) pg). destruct Dn as [Dn|Dn]; [rewrite (Y Dn); reflexivity|]. apply (N Dn). tauto.
    - exact (New (fun ptr len => HRing (kring_new ptr len)) hint clock CO (fun _ _ => eq_refl)).
    - exact (New (fun ptr len => HInf (kiring_new ptr len)) hint clock CO (fun _ _ => eq_refl)).
    - apply Td; [unfold tidy; destruct (pstep _ _ _ _); exact Logic.I|intros pg []].
    - apply Td; [unfold tidy; destruct (pstep _ _ _ _); exact Logic.I|intros pg []].
    - cbn [pstep lost]. destruct (pc_ring p k) as [h|] eqn:Hk.
      2:{ apply balanced_or_false; [intros pg (h & Q & _); discriminate Q|]. exact Bl. }
      destruct (ring_drop t (h_alloc h) (pc_w p)) as [r w'] eqn:Ed. destruct (R _ _ Hk) as (Fs & n & o & m & H). cbn [fst snd].
      destruct (home_drop_exact _ _ _ _ _ _ _ H Ed) as [Y N]. exact (shed_home B p w' k h K Bl Hk Y N).
  Qed.

  Lemma accounted_of w p L : balanced t (fun pg => mapped w pg \/ L pg) p -> (forall pg, mapped w pg -> ~ L pg) -> accounted t w p L.
  Proof.
    intros [B1 B2] D pg. specialize (B1 pg). specialize (B2 pg). specialize (D pg). unfold mapped in *. split; [tauto|]. tauto.
  Qed.
  Lemma ledger_reached w p L : ledger t plat w p L -> preached t plat p.
  Proof. induction 1; [apply pr_start|apply pr_step]; assumption. Qed.
  (** A page left behind was held, or not mapped. *)
  Lemma lost_held (B : Z -> Prop) c p x p' pg : balanced t B p -> lost t c p x p' pg -> ~ B pg.
  Proof.
    intros [B1 B2] H Hb. destruct c as [c|hint clock|hint clock|k c|k c|k]; try contradiction H; cbn [lost] in H.
    - destruct c; try contradiction H. destruct H as (l & Hl & Ho & _). apply (B2 pg Hb). right. eauto.
    - destruct H as (_ & N & _). exact (proj2 (B1 pg) (or_introl Hb) N).
    - destruct H as (_ & N & _). exact (proj2 (B1 pg) (or_introl Hb) N).
    - destruct H as (h & Hk & Hp & _). apply (B2 pg Hb). left. eauto.
  Qed.
  Lemma ledger_balanced w p L : ledger t plat w p L -> balanced t (fun pg => mapped w pg \/ L pg) p /\ (forall pg, mapped w pg -> ~ L pg).
  Proof.
    induction 1 as [W|p L c H [IH1 IH2] CO].
    - split; [|tauto]. apply balanced_or_false; [tauto|]. apply balanced_fresh.
    - pose proof (preached_ok t plat Ht p (ledger_reached _ _ _ H)) as K. split.
      + eapply balanced_ext; [|exact (ledger_step _ c p K CO IH1)]. intros pg. tauto.
      + intros pg Hm [HL|HL]; [exact (IH2 pg Hm HL)|]. exact (lost_held _ _ _ _ _ _ IH1 HL (or_introl Hm)).
  Qed.
  Theorem ledger_accounted w p L : ledger t plat w p L -> accounted t w p L.
  Proof. intros H. destruct (ledger_balanced _ _ _ H). apply accounted_of; assumption. Qed.

  (** What a failed attempt leaves behind. *)
  Theorem attempt_lost p hint clock c : preached t plat p -> is_usize t hint -> c = PRing hint clock \/ c = PInf hint clock ->
    let '(x, p') := pstep t plat c p in
    in_one_ring t hint (lost t c p x p') /\ ((exists pg, lost t c p x p' pg) -> refused_last (pc_w p) (pc_w p')).
  Proof.
    intros R Hh Hc. pose proof (ok_wf _ _ (pk_api _ _ (preached_ok t plat Ht p R))) as W.
    assert (G : forall mk, let '(x, p') := new_ring t plat mk hint clock p in
      in_one_ring t hint (fun pg => (exists e, x = ANew (Err e)) /\ w_vm (pc_w p) pg = None /\ w_vm (pc_w p') pg <> None) /\
      ((exists pg, (exists e, x = ANew (Err e)) /\ w_vm (pc_w p) pg = None /\ w_vm (pc_w p') pg <> None) -> refused_last (pc_w p) (pc_w p'))).
    { intros mk. unfold new_ring. destruct (ring_new t plat clock hint (pc_w p)) as [r w'] eqn:E.
      assert (Cl : exists len, is_ceil (t_alloc t) hint len) by exact (ceil_exists hint).
      assert (No : forall (Q : Z -> Prop) (R : Prop), (forall pg, ~ Q pg) -> in_one_ring t hint Q /\ ((exists pg, Q pg) -> R)).
      { intros Q R0 N. destruct Cl as (len & Cl). split; [exists 0, len; split; [exact Cl|]; intros pg H; destruct (N pg H)|]. intros (pg & H). destruct (N pg H). }
      destruct r as [b|e| | |]; try (apply No; intros pg [(e & Q) _]; discriminate Q).
      destruct (ring_failed_range _ _ _ _ _ W Hh E) as [V|(_ & Rf & len & Ce & first & V1 & V2)].
      - apply No. intros pg (_ & N & Y). change (pc_w (pc_set_w p w')) with w' in Y. rewrite V in Y. contradiction.
      - split; [|intros _; exact Rf]. exists first, len. split; [exact Ce|]. intros pg (_ & N & Y). change (pc_w (pc_set_w p w')) with w' in Y.
        destruct (Z_le_dec first pg); [|destruct Y; rewrite V2; [exact N|lia]]. destruct (Z_lt_dec pg (first + npages t (2 * len))); [lia|].
        destruct Y; rewrite V2; [exact N|lia]. }
    destruct Hc as [-> | ->]; cbn [pstep lost]; apply G.
  Qed.
End Ledger.

Section MachLedger.
  Variable t : target.
  Hypothesis Ht : posix_target t.
  Let Hg : good_target t := proj1 Ht.

  Lemma mledger_step B c p : pok t (mp_p p) -> mcall_ok t c -> balanced t B (mp_p p) ->
    balanced t (fun pg => B pg \/ lost t c (mp_p p) (fst (mstep t c p)) (mp_p (snd (mstep t c p))) pg) (mp_p (snd (mstep t c p))).
  Proof.
    intros K CM Bl. pose proof CM as [CO Hh]. pose proof K as [A C R RR RM]. pose proof (ok_wf _ _ A) as W.
    assert (Same : (match c with PMap _ | PCall _ _ | PICall _ _ => True | _ => False end) ->
      balanced t (fun pg => B pg \/ lost t c (mp_p p) (fst (mstep t c p)) (mp_p (snd (mstep t c p))) pg) (mp_p (snd (mstep t c p)))).
    { intros Sc. rewrite same_step by exact Sc. cbn [fst snd mp_p]. apply ledger_step; assumption. }
    assert (New : forall mk hint, hint_ok t hint -> (forall pg len, h_alloc (mk pg len) = {| ra_ptr := pg; ra_len := len |}) ->
      balanced t (fun pg => B pg \/ (exists e, fst (mach_new t mk hint p) = ANew (Err e)) /\ w_vm (pc_w (mp_p p)) pg = None /\
        w_vm (pc_w (mp_p (snd (mach_new t mk hint p)))) pg <> None) (mp_p (snd (mach_new t mk hint p)))).
    { intros mk hint Hi M. unfold mach_new in *. cbv zeta in *. destruct (mach_ring_new t hint (mp_mach p)) as [r s'] eqn:E.
      pose proof (mach_new_cases t Hg _ _ _ _ Hi E) as Cs. destruct r as [b|e| | |]; cbn [fst snd mp_p] in *; try contradiction Cs.
      - apply balanced_or_false; [intros pg [(e & Q) _]; discriminate Q|].
        assert (Ea : h_alloc (mk (ra_ptr b) (ra_len b)) = b) by (rewrite M; destruct b; reflexivity).
        destruct (mach_home t Ht hint (mp_mach p) _ _ _ W Hi E Ea) as (_ & _ & _ & Fr & Ot & n & H).
        exact (balanced_new t Ht B (mp_p p) (mc_w s') _ _ _ _ K Bl Fr Ot H).
      - apply balanced_ext with (B := fun pg => B pg \/ w_vm (pc_w (mp_p p)) pg = None /\ w_vm (mc_w s') pg <> None).
        + intros pg. change (pc_w (pc_set_w (mp_p p) (mc_w s'))) with (mc_w s'). split; [tauto|]. intros [H|H]; [auto|]. right. split; [eauto|exact H].
        + destruct Cs as (k & len & _ & V & _). apply (balanced_more t B (mp_p p) (mc_w s') len); [exact Bl|]. destruct V as [V|(_ & _ & V)]; auto.
      - apply balanced_or_false; [intros pg [(e & Q) _]; discriminate Q|]. subst s'. apply balanced_same; [|exact Bl]. reflexivity. }
    destruct c as [c|hint clock|hint clock|k c|k c|k]; try (apply Same; exact Logic.I).
    - exact (New (fun ptr len => HRing (kring_new ptr len)) hint (conj CO Hh) (fun _ _ => eq_refl)).
    - exact (New (fun ptr len => HInf (kiring_new ptr len)) hint (conj CO Hh) (fun _ _ => eq_refl)).
    - cbn [mstep lost]. destruct (pc_ring (mp_p p) k) as [h|] eqn:Hk.
      2:{ apply balanced_or_false; [intros pg (h & Q & _); discriminate Q|]. exact Bl. }
      destruct (mach_ring_drop t (h_alloc h) (mp_mach p)) as [r s'] eqn:Ed. destruct (R _ _ Hk) as (Fs & n & o & m & H). cbn [fst snd mp_p].
      destruct (mach_drop_exact t Ht (mp_mach p) _ _ _ _ _ _ H Ed) as [Y N]. exact (shed_home t B (mp_p p) (mc_w s') k h K Bl Hk Y N).
  Qed.
  Lemma mledger_reached w p L : mledger t w p L -> mreached t p.
  Proof. induction 1; [apply mr_start|apply mr_step]; assumption. Qed.
  Theorem mledger_accounted w p L : mledger t w p L -> accounted t w (mp_p p) L.
  Proof.
    intros H. enough (Q : balanced t (fun pg => mapped w pg \/ L pg) (mp_p p) /\ (forall pg, mapped w pg -> ~ L pg)) by (apply accounted_of; apply Q).
    induction H as [ports W|p L c H [IH1 IH2] CO].
    - split; [|tauto]. apply balanced_or_false; [tauto|]. exact (balanced_fresh t w).
    - pose proof (mreached_ok t Ht p (mledger_reached _ _ _ H)) as K. split.
      + eapply balanced_ext; [|exact (mledger_step _ c p K CO IH1)]. intros pg. cbn beta. tauto.
      + intros pg Hm [HL|HL]; [exact (IH2 pg Hm HL)|]. exact (lost_held t _ _ _ _ _ _ IH1 HL (or_introl Hm)).
  Qed.

  Theorem mattempt_lost p hint clock c : mreached t p -> mcall_ok t c -> c = PRing hint clock \/ c = PInf hint clock ->
    let '(x, p') := mstep t c p in
    in_one_ring t hint (lost t c (mp_p p) x (mp_p p')) /\
    ((exists pg, lost t c (mp_p p) x (mp_p p') pg) -> refused_last (pc_w (mp_p p)) (pc_w (mp_p p'))).
  Proof.
    intros R CM Hc. assert (Hi : hint_ok t hint) by (destruct CM as [C1 C2]; destruct Hc as [-> | ->]; exact (conj C1 C2)).
    assert (G : forall mk, let '(x, p') := mach_new t mk hint p in
      in_one_ring t hint (fun pg => (exists e, x = ANew (Err e)) /\ w_vm (pc_w (mp_p p)) pg = None /\ w_vm (pc_w (mp_p p')) pg <> None) /\
      ((exists pg, (exists e, x = ANew (Err e)) /\ w_vm (pc_w (mp_p p)) pg = None /\ w_vm (pc_w (mp_p p')) pg <> None) -> refused_last (pc_w (mp_p p)) (pc_w (mp_p p')))).
    { intros mk. unfold mach_new. cbv zeta. destruct (mach_ring_new t hint (mp_mach p)) as [r s'] eqn:E.
      pose proof (mach_new_cases t Hg _ _ _ _ Hi E) as Cs.
      assert (Cl : exists len, is_ceil (t_alloc t) hint len) by exact (ceil_exists t Ht hint).
      assert (No : forall (Q : Z -> Prop) (R : Prop), (forall pg, ~ Q pg) -> in_one_ring t hint Q /\ ((exists pg, Q pg) -> R)).
      { intros Q R0 N. destruct Cl as (len & Cl). split; [exists 0, len; split; [exact Cl|]; intros pg H; destruct (N pg H)|]. intros (pg & H). destruct (N pg H). }
      destruct r as [b|e| | |]; try (apply No; intros pg [(e & Q) _]; discriminate Q).
      assert (Hw : forall ports, pc_w (mp_p {| mp_p := pc_set_w (mp_p p) (mc_w s'); mp_ports := ports |}) = mc_w s') by reflexivity.
      destruct Cs as (k & len & _ & [V|(_ & Rf & first & V1 & V2)] & _ & Ce).
      - apply No. intros pg (_ & N & Y). rewrite Hw in Y. rewrite V in Y. exact (Y N).
      - split; [|intros _; exact Rf]. destruct (Z.eq_dec len 0) as [->|Nz].
        + destruct Cl as (len & Cl). exists 0, len. split; [exact Cl|]. intros pg (_ & N & Y). rewrite Hw in Y. destruct Y. rewrite V2; [exact N|].
          rewrite Z.mul_0_r. pose proof (npages_bounds t (pow2_pos _ (proj1 (proj2 Hg))) 0). pose proof (pow2_pos _ (proj1 (proj2 Hg))). nia.
        + exists first, len. split; [apply Ce; exact Nz|]. intros pg (_ & N & Y). rewrite Hw in Y.
        destruct (Z_le_dec first pg); [|destruct Y; rewrite V2; [exact N|lia]]. destruct (Z_lt_dec pg (first + npages t (2 * len))); [lia|].
        destruct Y; rewrite V2; [exact N|lia]. }
    destruct Hc as [-> | ->]; cbn [mstep lost]; apply G.
  Qed.
End MachLedger.
