(** Proofs for MachThreadLedgerSpec.v. *)
From Coq Require Import Lia.
From Verif Require Import Base Spec ErrorModel RingSpec RingModel SizeModel SizeProofs OsModel OthersModel MapModel MapSpec OsProofs MapProofs MapCreate MapOps
  ApiModel ApiSpec OthersProofs ApiProofs RingMapModel RingMapSpec MirrorProofs RingMapClaims RingProofs MemRingModel MemRingProofs
  ProcModel ProcSpec ProcFrame ProcProofs ProcPages ProcLedgerSpec ProcLedger ThreadModel ThreadSpec ThreadFrame ThreadProofs ThreadInv ThreadLedgerSpec ThreadLedger
  MachModel MachSpec MachProofs MachClaims MachProcModel MachProcSpec MachProcProofs MachThreadModel MachThreadSpec MachThreadFrame MachThreadProofs MachThreadInv
  MachThreadClaims MachThreadClaims2 MachThreadLedgerSpec.

Section Ledger.
  Variable t : target.
  Hypothesis Ht : posix_target t.
  Notation P := (t_page t).
  Let Hg : good_target t := proj1 Ht.
  Let HP : 0 < P.
  Proof. exact (pow2_pos _ (proj1 (proj2 Hg))). Qed.

  Definition mout_page (oc : moutcome) (q : Z) : Prop :=
    match oc with
    | MMore pd => mpd_page t pd q
    | MMade inf pg len => ring_page t (new_held inf pg len) q
    | MOver _ => False
    end.
  Definition mundoes (pd : mpending) : Prop := match pd with AUndo _ _ _ => True | _ => False end.
  Record mexactly (pd : mpending) (w w' : world) (oc : moutcome) : Prop := {
    mx_vm : forall q, w_vm w' q <> None <-> (w_vm w q <> None /\ ~ mpd_page t pd q) \/ mout_page oc q \/ (mpd_page t pd q /\ says_no w /\ mundoes pd);
    mx_new : forall q, mout_page oc q -> mpd_page t pd q \/ w_vm w q = None;
    mx_left : forall q, mpd_page t pd q -> says_no w -> mundoes pd -> ~ mout_page oc q
  }.
  Lemma mpage_dec pd q : mpd_page t pd q \/ ~ mpd_page t pd q.
  Proof. unfold mpd_page, mpd_addr. destruct pd; try tauto; lia. Qed.

  (** A stage that keeps what it has. *)
  Lemma keeping pd s s' oc : mring_ok t (mc_w s) (mc_ports s) pd -> mstaged t pd s s' oc -> ~ mundoes pd ->
    (forall q, mpd_page t pd q -> mout_page oc q) -> (forall q, w_vm (mc_w s') q <> None -> w_vm (mc_w s) q <> None \/ mout_page oc q) ->
    mexactly pd (mc_w s) (mc_w s') oc.
  Proof.
    intros M St U A B.
    assert (N : forall q, mout_page oc q -> mpd_page t pd q \/ w_vm (mc_w s) q = None).
    { pose proof (sg_out _ _ _ _ _ St) as O. destruct oc as [pd'|inf pg len|r]; cbn [mout_page]; [exact (proj2 O)| |tauto].
      destruct O as (n & o & _ & _ & O). intros q Hq. left. exact (O q Hq). }
    assert (C : forall q, mout_page oc q -> w_vm (mc_w s') q <> None).
    { pose proof (sg_out _ _ _ _ _ St) as O. destruct oc as [pd'|inf pg len|r]; cbn [mout_page]; [| |tauto].
      - intros q Hq. destruct (ring_mapped0 t Ht _ _ _ _ (proj1 O) Hq) as (e & ->). discriminate.
      - destruct O as (n & o & Hm & _ & _). intros q Hq. pose proof Hm as [L R _ _ _]. unfold ring_page, ring_addr in Hq.
        rewrite L in Hq. pose proof R as [R1 R2 R3 _ _ _].
        apply (addr_page t Ht _ n q R1 R2) in Hq. destruct (R3 (q - ra_ptr (h_alloc (new_held inf pg len)) / P) ltac:(lia)) as (e & He & _).
        replace (ra_ptr (h_alloc (new_held inf pg len)) / P + (q - ra_ptr (h_alloc (new_held inf pg len)) / P)) with q in He by lia. congruence. }
    split; [|exact N|tauto]. intros q. specialize (A q). specialize (B q). specialize (C q). specialize (N q).
    destruct (mpage_dec pd q) as [Y|Y]; [tauto|].
    pose proof (sg_vm _ _ _ _ _ St q) as K. destruct (w_vm (mc_w s) q) as [e|] eqn:Ev.
    - rewrite (K e Y eq_refl). split; [left; split; [discriminate|exact Y]|discriminate].
    - tauto.
  Qed.

  Lemma madv_exact pd s oc s' : wf (mc_w s) -> mring_ok t (mc_w s) (mc_ports s) pd -> madvance t pd s = (oc, s') -> mexactly pd (mc_w s) (mc_w s') oc.
  Proof.
    intros W M E. pose proof (madv_staged t Ht pd s oc s' W M E) as St. pose proof (bits_half t Hg) as [B1 B2].
    destruct pd as [inf len|inf len pg|inf len pg|inf len size pg port|len pg e0].
    - apply keeping; [exact M|exact St|intros []|intros q []|]. cbn [madvance mring_ok] in *. destruct M as (U & D & Hc).
      destruct (umul (E:=error) t 2 len) as [full|e| | |] eqn:Eu; try (apply pair_eq in E as [<- <-]; auto).
      destruct (kern_call RingAllocate (on_world (vm_allocate_anywhere t full)) s) as [r s1] eqn:Ek.
      apply kern_run in Ek. destruct r as [a|e| | |].
      2: { destruct Ek as (c & Ek & _). apply world_run in Ek as [Ek _]. apply anywhere_spec in Ek as [_ Q]. apply pair_eq in E as [<- <-].
           intros q Hq. left. rewrite <- (q_vm _ _ Q). exact Hq. }
      2,3,4: apply world_run in Ek as [Ek _]; apply anywhere_spec in Ek as [_ []].
      apply world_run in Ek as [Ek _]. apply anywhere_spec in Ek as [_ Ek]. apply pair_eq in E as [<- <-].
      destruct Ek as [(_ & _ & Q)|(N & R & Fr & NM)]; [intros q Hq; left; rewrite <- (q_vm _ _ Q); exact Hq|].
      pose proof NM as [V _ _ _ _]. intros q Hq. rewrite V in Hq. destruct (in_pages_cases (a / P) (npages t full) q) as [[_ I]|[X _]]; [|rewrite X in Hq; auto].
      right. cbn [mout_page]. pose proof (sg_out _ _ _ _ _ St) as [(n & En & S0 & S) _].
      assert (Ef : full = 2 * len).
      { unfold umul, wrap in Eu. destruct ((0 <=? 2 * len) && (2 * len <? 2 ^ t_bits t)) eqn:Eb; [injection Eu as <-; reflexivity|].
        assert (0 <= n) by (destruct S as [Sz|[R1 _ _ _ _]]; nia); rewrite (proj2 (Z.leb_le 0 (2 * len))), (proj2 (Z.ltb_lt (2 * len) _)) in Eb by nia; discriminate Eb. }
      destruct S as [->|S]; [lia|]. pose proof S as [R1 R2 _ _ _]. rewrite Ef, En in I.
      replace (2 * (P * n)) with (P * (2 * n)) in I by lia. rewrite (npages_mul t HP) in I.
      unfold mpd_page. cbn [mpd_addr]. rewrite En. apply (addr_page t Ht a n q R1 R2), I.
    - cbn [madvance mring_ok] in *. pose proof M as (n & En & S0 & S). revert E.
      destruct (kern_call RingPrimary (on_world (vm_allocate_fixed t pg len)) s) as [r s1] eqn:Ek. intros E.
      apply kern_run in Ek. destruct r as [a|e| | |].
      2: { destruct Ek as (c & Ek & _). apply world_run in Ek as [Ek _]. apply fixed_spec in Ek as [_ Q]. apply pair_eq in E as [<- <-].
           apply keeping; [exact M|exact St|intros []|auto|]. intros q Hq. left. rewrite <- (q_vm _ _ Q). exact Hq. }
      2,3,4: apply world_run in Ek as [Ek _]; apply fixed_spec in Ek as [_ []].
      apply world_run in Ek as [Ek _]. apply fixed_spec in Ek as [_ Ek]. apply pair_eq in E as [<- <-].
      destruct Ek as [(Z0 & -> & Q)|(N & -> & R & NM)].
      + apply keeping; [exact M|exact St|intros []| |].
        * intros q Hq. unfold mpd_page in Hq. cbn [mpd_addr] in Hq. lia.
        * intros q Hq. left. rewrite <- (q_vm _ _ Q). exact Hq.
      + apply keeping; [exact M|exact St|intros []|auto|]. intros q Hq. pose proof NM as [V _ _ _ _]. rewrite V in Hq.
        destruct (in_pages_cases (pg / P) (npages t len) q) as [[_ I]|[X _]]; [|rewrite X in Hq; auto].
        right. destruct S as [->|S]; [lia|]. pose proof S as [R1 R2 _ _ _]. rewrite En, (npages_mul t HP) in I.
        cbn [mout_page]. unfold mpd_page. cbn [mpd_addr]. rewrite En. apply (addr_page t Ht pg n q R1 R2). lia.
    - cbn [madvance mring_ok] in *. pose proof M as (n & En & S & Hh). revert E.
      destruct (kern_call RingEntry (make_memory_entry t len pg) s) as [r s1] eqn:Ek. intros E.
      apply kern_run in Ek. destruct r as [[size port]|e| | |].
      2: { destruct Ek as (c & Ek & _). apply entry_spec in Ek as (Q & _ & _). apply pair_eq in E as [<- <-].
           apply keeping; [exact M|exact St|intros []|auto|]. intros q Hq. left. rewrite <- (q_vm _ _ Q). exact Hq. }
      2,3,4: apply entry_spec in Ek as (_ & _ & []).
      apply entry_spec in Ek as (Q & _). apply pair_eq in E as [<- <-].
      apply keeping; [exact M|exact St|intros []|auto|]. intros q Hq. left. rewrite <- (q_vm _ _ Q). exact Hq.
    - cbn [madvance mring_ok] in *. pose proof M as (-> & n & o & En & S & Hf & M0 & Hm). pose proof Hf as [R1 R2 R3 R4 R5 R6]. revert E.
      unfold uadd, wrap. rewrite (proj2 (Z.leb_le 0 (pg + len))), (proj2 (Z.ltb_lt (pg + len) _)) by nia. cbn [andb].
      destruct (kern_call RingSecondary (vm_map_fixed t (pg + len) len port) s) as [r s1] eqn:Ek. intros E.
      apply kern_run in Ek. destruct r as [a|e| | |].
      2: { destruct Ek as (c & Ek & _). apply (vm_map_spec t _ _ _ _ _ _ _ Hm) in Ek as (_ & _ & Q). apply pair_eq in E as [<- <-].
           apply keeping; [exact M|exact St|intros []|auto|]. intros q Hq. left. rewrite <- (q_vm _ _ Q). exact Hq. }
      2,3,4: apply (vm_map_spec t _ _ _ _ _ _ _ Hm) in Ek as (_ & _ & []).
      apply (vm_map_spec t _ _ _ _ _ _ _ Hm) in Ek as (_ & _ & _ & V & _). apply pair_eq in E as [<- <-].
      assert (Al : h_alloc (new_held inf pg len) = {| ra_ptr := pg; ra_len := len |}) by (destruct inf; reflexivity).
      apply keeping; [exact M|exact St|intros []| |].
      + intros q Hq. cbn [mout_page]. unfold ring_page, ring_addr. rewrite Al. exact Hq.
      + intros q Hq. rewrite V in Hq. assert (Np : npages t len = n) by (rewrite En; apply npages_mul, HP). rewrite Np in Hq.
        assert (Hd : (pg + len) / P = pg / P + n) by (rewrite En, (Z.mul_comm P n); apply Z.div_add; lia). rewrite Hd in Hq.
        destruct (in_pages_cases (pg / P + n) n q) as [[_ I]|[X _]]; [|rewrite X in Hq; auto]. right.
        cbn [mout_page]. unfold ring_page, ring_addr. rewrite Al. cbn [ra_ptr ra_len]. rewrite En. apply (addr_page t Ht pg n q R1 R2). lia.
    - cbn [madvance] in E. pose proof M as (n & En & S0 & S). unfold umul, wrap in E.
      assert (L0 : 0 <= 2 * len) by (destruct S as [->|[R1 _ _ _ _]]; [lia|nia]).
      rewrite (proj2 (Z.leb_le 0 (2 * len))), (proj2 (Z.ltb_lt (2 * len) _)) in E by lia. cbn [andb] in E. unfold on_world in E.
      destruct (vm_deallocate t pg (2 * len) (mc_w s)) as [r w1] eqn:Ed. cbn [snd] in *. apply pair_eq in E as [<- <-]. cbn [mc_w].
      assert (Pm : forall q, mpd_page t (AUndo len pg e0) q -> w_vm (mc_w s) q <> None).
      { intros q Hq. destruct (ring_mapped0 t Ht _ _ _ _ M Hq) as (e & ->). discriminate. }
      split; cbn [mout_page mundoes]; [|tauto|tauto]. intros q. specialize (Pm q).
      pose proof (mpage_dec (AUndo len pg e0) q) as Dc.
      unfold vm_deallocate, ask in Ed. unfold says_no. destruct (w_orc (mc_w s)) as [|[c|c] orc].
      + injection Ed as <- <-. tauto.
      + apply pair_eq in Ed as [_ <-]. cbn [w_vm set_orc]. tauto.
      + destruct (2 * len =? 0) eqn:Ez; apply pair_eq in Ed as [_ <-].
        * apply Z.eqb_eq in Ez. assert (Nq : ~ mpd_page t (AUndo len pg e0) q) by (unfold mpd_page; cbn [mpd_addr]; lia). cbn [w_vm set_orc]. tauto.
        * apply Z.eqb_neq in Ez. destruct S as [->|R]; [lia|]. pose proof R as [R1 R2 R3 R4 R5]. cbn [w_vm set_vm set_orc]. rewrite R2, Z.add_0_l.
          assert (Np : npages t (2 * len) = 2 * n) by (rewrite En; replace (2 * (P * n)) with (P * (2 * n)) by lia; apply npages_mul, HP). rewrite Np.
          assert (Pg : mpd_page t (AUndo len pg e0) q <-> pg / P <= q < pg / P + 2 * n) by (unfold mpd_page; cbn [mpd_addr]; rewrite En; exact (addr_page t Ht pg n q R1 R2)).
          rewrite Pg. destruct (in_pages_cases (pg / P) (2 * n) q) as [[-> I]|[-> I]]; [|tauto].
          split; [intros C; destruct (C eq_refl)|]. intros [[_ C]|[[]|(_ & [] & _)]]. contradiction.
  Qed.

  (** ** The other rings being made *)
  Definition mother_page (s : msys) (tid pg : Z) : Prop := exists j pd, j <> tid /\ ms_ring s j = Some pd /\ mpd_page t pd pg.
  Lemma mbusy_split s tid pg : mbusy_page t s pg <-> mother_page s tid pg \/ exists pd, ms_ring s tid = Some pd /\ mpd_page t pd pg.
  Proof.
    split.
    - intros (j & pd & H1 & H2). destruct (Z.eq_dec j tid) as [->|N]; [right|left]; [eauto|exists j, pd; auto].
    - intros [(j & pd & _ & H1 & H2)|(pd & H1 & H2)]; [exists j, pd|exists tid, pd]; auto.
  Qed.
  Lemma mother_set s p ports tid x pg : mother_page (ms_set s p ports tid x) tid pg <-> mother_page s tid pg.
  Proof. split; intros (j & pd & N & H1 & H2); exists j, pd; (split; [exact N|split; [|exact H2]]); cbn in *; [rewrite put_other in H1|rewrite put_other]; auto. Qed.

  Record mcounted (w : world) (s : msys) (L D : Z -> Prop) : Prop := {
    mct_ok : mok t s;
    mct_posix : counted t w (ms_t s) (fun pg => mbusy_page t s pg \/ L pg) D;
    mct_apart : forall pg, mbusy_page t s pg -> ~ L pg
  }.
  Lemma mcounted_ext w s L D (L' D' : Z -> Prop) : mcounted w s L D -> (forall pg, L' pg <-> L pg) -> (forall fd, D' fd <-> D fd) -> mcounted w s L' D'.
  Proof.
    intros [K C A] El Ed. split; [exact K| |].
    - apply (counted_ext t _ _ (fun pg => mbusy_page t s pg \/ L pg) D); [exact C| |exact Ed]. intros pg. rewrite (El pg). reflexivity.
    - intros pg H. rewrite (El pg). exact (A pg H).
  Qed.

  (** A step of ThreadModel.v. *)
  Lemma posix_counted w s L D e : mcounted w s L D -> ev_ok t (ms_t s) e -> not_ring e ->
    forall x s', on_posix (tstep t Anonymous e (ms_t s)) s = (x, s') ->
    mcounted w s' (fun pg => L pg \/ match e with ECall c => exists r, x = TCall r /\ lost t c (ms_p s) r (ms_p s') pg | _ => False end)
      (fun fd => (D fd /\ e <> ECall (PMap (CClose fd))) \/ given x fd).
  Proof.
    intros [K C A] EO NR x s' E. pose proof (posix_ok t Ht e s K EO NR) as K'. rewrite E in K'. cbn [snd] in K'.
    pose proof (step_counted t Anonymous Ht w (ms_t s) _ D e C EO) as C'. unfold on_posix in E.
    destruct (tstep t Anonymous e (ms_t s)) as [r x1] eqn:Et. injection E as <- <-. cbn [fst snd] in *.
    assert (El : forall pg, tlost t e (ms_t s) r x1 pg <-> match e with ECall c => exists y, r = TCall y /\ lost t c (ms_p s) y (ts_p x1) pg | _ => False end).
    { intros pg. destruct e; cbn [tlost]; try reflexivity. split; [|tauto]. intros (pd & Hp & Hq & _). exact (map_stage_page t _ _ (mk_only _ _ K _ _ Hp) Hq). }
    split; [exact K'| |].
    - cbn [ms_t]. apply (counted_ext t _ _ _ _ _ _ C'); [|reflexivity]. intros pg. rewrite (El pg). unfold ms_p. cbn [ms_t].
      change (mbusy_page t {| ms_t := x1; ms_ports := ms_ports s; ms_ring := ms_ring s |} pg) with (mbusy_page t s pg). tauto.
    - intros pg H [Q|Q]; [exact (A pg H Q)|]. change (mbusy_page t s pg) in H. destruct e as [c| | | |]; try contradiction Q. destruct Q as (y & -> & Q).
      pose proof C as [_ _ Pa _].
      set (B := fun pg => w_vm w pg <> None \/ busy_page t (ms_t s) pg \/ mbusy_page t s pg \/ L pg).
      assert (Bl : balanced t B (ms_p s)). { split; intros q; specialize (Pa q); unfold B, ms_p; tauto. }
      apply (lost_held t B c (ms_p s) y _ pg Bl Q). unfold B. tauto.
  Qed.

  Lemma go_mcounted w s L D tid pd : mcounted w s L D -> ms_ring s tid = Some pd ->
    mcounted w (snd (mgo t tid pd s))
      (fun pg => L pg \/ (exists pd0, ms_ring s tid = Some pd0 /\ mpd_page t pd0 pg /\ says_no (pc_w (ms_p s)) /\ mundoes pd0))
      (fun fd => (D fd /\ EGo tid <> ECall (PMap (CClose fd))) \/ given (fst (mgo t tid pd s)) fd).
  Proof.
    intros [K C A] Hp. pose proof (mgo_ok t Ht s tid pd K Hp) as K'. pose proof (mgo_fd t Ht s tid pd K Hp) as [Fd Pl]. revert K' Fd Pl. unfold mgo.
    destruct (madvance t pd (ms_mach s)) as [oc m'] eqn:E.
    pose proof (madv_exact _ _ _ _ (ok_wf _ _ (pk_api _ _ (tk_proc _ _ (mk_t _ _ K))) : wf (mc_w (ms_mach s))) (mk_ring _ _ K _ _ Hp) E) as X.
    cbn [ms_mach mc_w] in X.
    assert (Main : forall p' x g, mok t (ms_set s p' (mc_ports m') tid x) -> pc_w p' = mc_w m' ->
      (forall pg, holds_page t p' pg \/ (exists pd', x = Some pd' /\ mpd_page t pd' pg) <-> holds_page t (ms_p s) pg \/ mout_page oc pg) ->
      (forall pg, (exists pd', x = Some pd' /\ mpd_page t pd' pg) -> mout_page oc pg /\ ~ holds_page t p' pg) ->
      w_fd (mc_w m') = w_fd (pc_w (ms_p s)) -> (forall fd, ~ given g fd) ->
      mcounted w (ms_set s p' (mc_ports m') tid x)
        (fun pg => L pg \/ (exists pd0, ms_ring s tid = Some pd0 /\ mpd_page t pd0 pg /\ says_no (pc_w (ms_p s)) /\ mundoes pd0))
        (fun fd => (D fd /\ EGo tid <> ECall (PMap (CClose fd))) \/ given g fd)).
    { intros p' x g K' Ew Ho Dx Fd Ng.
      assert (Sum : forall pg,
        (w_vm (mc_w m') pg <> None <-> w_vm w pg <> None \/ holds_page t p' pg \/ mbusy_page t (ms_set s p' (mc_ports m') tid x) pg \/
           (L pg \/ (mpd_page t pd pg /\ says_no (pc_w (ms_p s)) /\ mundoes pd))) /\
        (w_vm w pg <> None -> ~ holds_page t p' pg /\ ~ mbusy_page t (ms_set s p' (mc_ports m') tid x) pg /\ ~ (L pg \/ (mpd_page t pd pg /\ says_no (pc_w (ms_p s)) /\ mundoes pd))) /\
        (holds_page t p' pg -> ~ mbusy_page t (ms_set s p' (mc_ports m') tid x) pg /\ ~ (L pg \/ (mpd_page t pd pg /\ says_no (pc_w (ms_p s)) /\ mundoes pd))) /\
        (mbusy_page t (ms_set s p' (mc_ports m') tid x) pg -> ~ (L pg \/ (mpd_page t pd pg /\ says_no (pc_w (ms_p s)) /\ mundoes pd)))).
      { intros pg. rewrite (mbusy_split _ tid), mother_set. cbn [ms_set ms_ring]. rewrite put_same.
        destruct X as [V Nw Lf]. specialize (V pg). specialize (Nw pg). specialize (Lf pg). specialize (Ho pg). specialize (Dx pg).
        pose proof (ct_pages _ _ _ _ _ C pg) as Pa. specialize (A pg). cbv beta in Pa. rewrite (mbusy_split s tid pg) in Pa, A.
        assert (Nb : ~ busy_page t (ms_t s) pg) by (intros (i & b & Hb & Q); exact (map_stage_page t _ _ (mk_only _ _ K _ _ Hb) Q)).
        assert (Ec : (exists pd0, ms_ring s tid = Some pd0 /\ mpd_page t pd0 pg) <-> mpd_page t pd pg) by (rewrite Hp; split; [intros (a & [= <-] & Q); exact Q|eauto]).
        rewrite Ec in Pa, A.
        assert (Ap : mother_page s tid pg -> ~ mpd_page t pd pg).
        { intros (j & b & N & Hb & Qb) Q. exact (mk_pages _ _ K _ _ _ _ _ Hb Hp N Qb Q). }
        change (ts_p (ms_t s)) with (ms_p s) in Pa. destruct Pa as (P1 & P2 & P3 & _).
        refine (page_sum t Ht (w_vm (pc_w (ms_p s)) pg <> None) (w_vm (mc_w m') pg <> None) (w_vm w pg <> None) (holds_page t (ms_p s) pg) (holds_page t p' pg) (mother_page s tid pg)
          (mpd_page t pd pg) (mout_page oc pg) (says_no (pc_w (ms_p s)) /\ mundoes pd) _ (L pg) _ _ _ A V _ _ Ho Dx Ap (mpage_dec pd pg)).
        - clear - P1 Nb. tauto.
        - clear - P2. tauto.
        - clear - P3. tauto.
        - intros Q. destruct (Nw Q) as [Q'|Q']; [left; exact Q'|right; congruence].
        - intros (Q1 & Q2 & Q3). exact (Lf Q1 Q2 Q3). }
      assert (El : forall pg, (exists pd0, ms_ring s tid = Some pd0 /\ mpd_page t pd0 pg /\ says_no (pc_w (ms_p s)) /\ mundoes pd0) <->
        (mpd_page t pd pg /\ says_no (pc_w (ms_p s)) /\ mundoes pd)) by (intros pg; rewrite Hp; split; [intros (a & [= <-] & Q); exact Q|eauto]).
      apply (mcounted_ext w _ (fun pg => L pg \/ (mpd_page t pd pg /\ says_no (pc_w (ms_p s)) /\ mundoes pd)) D).
      - split; [exact K'| |intros pg; exact (proj2 (proj2 (proj2 (Sum pg))))].
        destruct C as [Ck Cf Cp Ci]. split; [exact (mk_t _ _ K')|exact Cf| |].
        + intros pg. specialize (Sum pg). unfold ms_p. cbn [ms_set ms_t ts_p]. rewrite Ew.
          assert (Nb : ~ busy_page t {| ts_p := p'; ts_pool := ts_pool (ms_t s) |} pg) by (intros (i & b & Hb & Q); exact (map_stage_page t _ _ (mk_only _ _ K _ _ Hb) Q)).
          change (ms_t (ms_set s p' (mc_ports m') tid x)) with {| ts_p := p'; ts_pool := ts_pool (ms_t s) |}. clear - Sum Nb. tauto.
        + intros fd. specialize (Ci fd). cbn [ms_set ms_t]. unfold files_accounted in Ci. cbn [ts_p]. rewrite Ew, Fd.
          exact Ci.
      - intros pg. rewrite (El pg). reflexivity.
      - intros fd. specialize (Ng fd). split; [intros [[Q _]|Q]; [exact Q|contradiction]|]. intros Q. left. split; [exact Q|discriminate]. }
    assert (Hh : forall q, mout_page oc q -> ~ holds_page t (ms_p s) q).
    { intros q Hq Hh. pose proof (ct_pages _ _ _ _ _ C q) as Pa. destruct (mx_new _ _ _ _ X q Hq) as [Q|Q].
      - apply (proj2 (proj1 (proj2 (proj2 Pa)) Hh)). left. exists tid, pd. auto.
      - apply (proj2 (proj1 Pa)); auto. }
    destruct oc as [pd'|inf pg len|r]; cbn [fst snd]; intros K' Fd _.
    - apply (Main (pc_set_w (ms_p s) (mc_w m')) (Some pd') TNone); [exact K'|reflexivity| | |exact Fd|intros fd []].
      + intros q. change (holds_page t (pc_set_w (ms_p s) (mc_w m')) q) with (holds_page t (ms_p s) q). cbn [mout_page].
        split; (intros [Q|Q]; [auto|right]); [destruct Q as (a & [= <-] & Q); exact Q|eauto].
      + intros q (a & [= <-] & Q). split; [exact Q|]. exact (Hh q Q).
    - apply (Main {| pc_a := set_w (pc_a (ms_p s)) (mc_w m'); pc_ring := put (pc_ring (ms_p s)) (pc_cnt (ms_p s)) (Some (new_held inf pg len)); pc_cnt := pc_cnt (ms_p s) + 1 |}
        None (TRing (Ret (pc_cnt (ms_p s))))); [exact K'|reflexivity| | |exact Fd|intros fd []].
      + intros q. rewrite (holds_new_ring t _ _ _ _ (tk_proc _ _ (mk_t _ _ K))). cbn [mout_page].
        split; [intros [Q|(a & Q & _)]; [exact Q|discriminate Q]|auto].
      + intros q (a & Q & _). discriminate Q.
    - apply (Main (pc_set_w (ms_p s) (mc_w m')) None (TRing r)); [exact K'|reflexivity| | |exact Fd|intros fd []].
      + intros q. change (holds_page t (pc_set_w (ms_p s) (mc_w m')) q) with (holds_page t (ms_p s) q). cbn [mout_page].
        split; [intros [Q|(a & Q & _)]; [auto|discriminate Q]|intros [Q|[]]; auto].
      + intros q (a & Q & _). discriminate Q.
  Qed.

  Lemma mstep_counted w s L D e : mcounted w s L D -> mev_ok t s e ->
    mcounted w (snd (mtstep t e s))
      (fun pg => L pg \/ mtlost t e s (fst (mtstep t e s)) (snd (mtstep t e s)) pg)
      (fun fd => (D fd /\ e <> ECall (PMap (CClose fd))) \/ given (fst (mtstep t e s)) fd).
  Proof.
    intros C [EO MO]. pose proof (mct_ok _ _ _ _ C) as K. pose proof (mtstep_ok t Ht e s K (conj EO MO)) as K'.
    assert (Ps : not_ring e -> (forall tid, e = EGo tid -> ms_ring s tid = None) -> mtstep t e s <> (TNone, s) ->
      mcounted w (snd (mtstep t e s)) (fun pg => L pg \/ mtlost t e s (fst (mtstep t e s)) (snd (mtstep t e s)) pg)
        (fun fd => (D fd /\ e <> ECall (PMap (CClose fd))) \/ given (fst (mtstep t e s)) fd)).
    { intros NR G N. destruct (mtstep_posix t Ht e s K EO NR G) as [X|X]; [|contradiction]. rewrite X.
      destruct (on_posix (tstep t Anonymous e (ms_t s)) s) as [x s'] eqn:Ep. cbn [fst snd].
      apply (mcounted_ext _ _ _ _ _ _ (posix_counted w s L D e C EO NR x s' Ep)); [|reflexivity].
      intros pg. destruct e; cbn [mtlost]; try reflexivity. split; [|tauto]. intros [Q|(pd & Hp & _)]; [auto|]. rewrite (G _ eq_refl) in Hp. discriminate Hp. }
    assert (Same : forall x, (forall pg, ~ mtlost t e s x s pg) -> (forall fd, e <> ECall (PMap (CClose fd))) -> (forall fd, ~ given x fd) ->
      mcounted w s (fun pg => L pg \/ mtlost t e s x s pg) (fun fd => (D fd /\ e <> ECall (PMap (CClose fd))) \/ given x fd)).
    { intros x Nl Nc Ng. apply (mcounted_ext _ _ L D); [exact C| |].
      - intros pg. specialize (Nl pg). tauto.
      - intros fd. specialize (Nc fd). specialize (Ng fd). tauto. }
    destruct e as [c|tid mut o path|tid mut o fd|tid inf hint clock|tid].
    - apply Ps; [intros ? ? ? ?; discriminate|discriminate|]. cbn [mtstep]. destruct (mstep t c {| mp_p := ms_p s; mp_ports := ms_ports s |}). discriminate.
    - cbn [mtstep] in *. destruct (ms_ring s tid) eqn:N0; cbn [fst snd]; [apply Same; [intros ? []|discriminate|intros ? []]|].
      destruct (on_posix (tstep t Anonymous (EOpen tid mut o path) (ms_t s)) s) as [x s'] eqn:Ep. cbn [fst snd].
      exact (mcounted_ext _ _ _ _ _ _ (posix_counted w s L D _ C EO ltac:(intros ? ? ? ?; discriminate) x s' Ep) (fun _ => iff_refl _) (fun _ => iff_refl _)).
    - cbn [mtstep] in *. destruct (ms_ring s tid) eqn:N0; cbn [fst snd]; [apply Same; [intros ? []|discriminate|intros ? []]|].
      destruct (on_posix (tstep t Anonymous (EMap tid mut o fd) (ms_t s)) s) as [x s'] eqn:Ep. cbn [fst snd].
      exact (mcounted_ext _ _ _ _ _ _ (posix_counted w s L D _ C EO ltac:(intros ? ? ? ?; discriminate) x s' Ep) (fun _ => iff_refl _) (fun _ => iff_refl _)).
    - cbn [mtstep] in *. destruct (ms_ring s tid) eqn:N0; cbn [fst snd]; [apply Same; [intros ? []|discriminate|intros ? []]|].
      destruct (ts_pool (ms_t s) tid) eqn:N1; cbn [fst snd]; [apply Same; [intros ? []|discriminate|intros ? []]|].
      destruct (size_round (E:=error) t (size_alloc t) hint) as [len|er| | |] eqn:Er; cbn [fst snd] in *.
      2-5: apply Same; [intros ? []|discriminate|intros ? []].
      assert (Eb : forall pg, mbusy_page t (ms_set s (ms_p s) (ms_ports s) tid (Some (AAny inf len))) pg <-> mbusy_page t s pg).
      { intros pg. rewrite !(mbusy_split _ tid), mother_set. cbn [ms_set ms_ring]. rewrite put_same, N0. split; (intros [Q|(a & Q & R)]; [auto|]).
        - injection Q as <-. destruct R.
        - discriminate Q. }
      apply (mcounted_ext _ _ L D); [|intros pg; cbn [mtlost]; tauto|intros fd; cbn [given]; split; [intros [[Q _]|[]]; exact Q|intros Q; left; split; [exact Q|discriminate]]].
      destruct C as [_ C A]. split; [exact K'| |intros pg; rewrite (Eb pg); exact (A pg)].
      assert (Et : ms_t (ms_set s (ms_p s) (ms_ports s) tid (Some (AAny inf len))) = ms_t s) by (unfold ms_set, ms_p; destruct s as [[p pl] q r]; reflexivity).
      rewrite Et. apply (counted_ext t _ _ _ _ _ _ C); [|reflexivity]. intros pg. rewrite (Eb pg). reflexivity.
    - destruct (ms_ring s tid) as [pd|] eqn:Hp.
      + cbn [mtstep] in *. rewrite Hp in *. pose proof (go_mcounted w s L D tid pd C Hp) as X. exact X.
      + cbn [mtstep] in *. rewrite Hp in *.
        destruct (on_posix (tstep t Anonymous (EGo tid) (ms_t s)) s) as [x s'] eqn:Ep. cbn [fst snd].
        apply (mcounted_ext _ _ _ _ _ _ (posix_counted w s L D _ C EO ltac:(intros ? ? ? ?; discriminate) x s' Ep)); [|reflexivity].
        intros pg. cbn [mtlost]. split; [|tauto]. intros [Q|(pd & Q & _)]; [auto|congruence].
  Qed.

  Theorem mledger_counted w ports s L D : mtledger t w ports s L D -> mcounted w s L D.
  Proof.
    induction 1 as [W|s L D e H IH EO].
    - assert (Nm : forall pg, ~ mbusy_page t (midle w ports) pg) by (intros pg (i & pd & Q & _); discriminate Q).
      split; [exact (midle_ok t w ports W)| |intros pg Q; destruct (Nm pg Q)].
      change (ms_t (midle w ports)) with (idle w).
      apply (counted_ext t _ _ _ _ _ _ (ledger_counted t Anonymous Ht w _ _ _ (tl_start t Anonymous w W))); [|reflexivity].
      intros pg. specialize (Nm pg). tauto.
    - exact (mstep_counted w s L D e IH EO).
  Qed.
  Theorem mledger_pages w ports s L D : mtledger t w ports s L D -> mpages_accounted t w s L.
  Proof.
    intros H pg. destruct (mledger_counted w ports s L D H) as [K C A]. pose proof (ct_pages _ _ _ _ _ C pg) as Pa. specialize (A pg).
    assert (Nb : ~ busy_page t (ms_t s) pg) by (intros (i & b & Hb & Q); exact (map_stage_page t _ _ (mk_only _ _ K _ _ Hb) Q)).
    unfold ms_p. clear - Pa A Nb. tauto.
  Qed.
  Theorem mledger_files w ports s L D : mtledger t w ports s L D -> files_accounted (ms_t s) D.
  Proof. intros H. exact (ct_files _ _ _ _ _ (mct_posix _ _ _ _ (mledger_counted w ports s L D H))). Qed.

  (** ** Memory entries *)
  Lemma mports_step s e : mok t s -> mev_ok t s e ->
    (forall port m, ms_ports s port = Some m -> ms_ports (snd (mtstep t e s)) port = Some m) /\
    (forall port, ms_ports s port = None -> ms_ports (snd (mtstep t e s)) port <> None ->
       exists tid inf len pg, e = EGo tid /\ ms_ring s tid = Some (AEntry inf len pg) /\ ms_ring (snd (mtstep t e s)) tid = Some (AMap inf len len pg port)).
  Proof.
    intros K EO. assert (Same : forall s', ms_ports s' = ms_ports s -> (forall port m, ms_ports s port = Some m -> ms_ports s' port = Some m) /\
      (forall port, ms_ports s port = None -> ms_ports s' port <> None ->
        exists tid inf len pg, e = EGo tid /\ ms_ring s tid = Some (AEntry inf len pg) /\ ms_ring s' tid = Some (AMap inf len len pg port))).
    { intros s' ->. split; [auto|]. intros port N M. contradiction. }
    assert (Px : forall x, ms_ports (snd (on_posix x s)) = ms_ports s) by (intros [r x]; reflexivity).
    destruct e as [c|tid mut o path|tid mut o fd|tid inf hint clock|tid].
    - destruct EO as [(_ & On & _) _]. rewrite (call_posix t Ht c s K On). apply Same, Px.
    - apply Same. cbn [mtstep]. destruct (ms_ring s tid); [reflexivity|apply Px].
    - apply Same. cbn [mtstep]. destruct (ms_ring s tid); [reflexivity|apply Px].
    - apply Same. cbn [mtstep]. destruct (ms_ring s tid); [reflexivity|]. destruct (ts_pool (ms_t s) tid); [reflexivity|]. destruct (size_round (E:=error) t (size_alloc t) hint); reflexivity.
    - cbn [mtstep]. destruct (ms_ring s tid) as [pd|] eqn:Hp; [|apply Same, Px]. unfold mgo. destruct (madvance t pd (ms_mach s)) as [oc m'] eqn:E.
      pose proof (madv_staged t Ht _ _ _ _ (ok_wf _ _ (pk_api _ _ (tk_proc _ _ (mk_t _ _ K))) : wf (mc_w (ms_mach s))) (mk_ring _ _ K _ _ Hp) E) as St.
      pose proof (sg_ports _ _ _ _ _ St) as Kp. cbn [ms_mach mc_ports] in Kp.
      split; [destruct oc; exact Kp|]. intros port N M.
      assert (M' : mc_ports m' port <> None) by (destruct oc; exact M). clear M.
      pose proof (mk_ring _ _ K _ _ Hp) as R.
      destruct pd as [inf len|inf len pg|inf len pg|inf len size pg port0|len pg e0].
      + exfalso. cbn [madvance] in E. destruct (umul (E:=error) t 2 len) as [full|e| | |]; try (apply pair_eq in E as [_ <-]; exact (M' N)).
        destruct (kern_call RingAllocate (on_world (vm_allocate_anywhere t full)) (ms_mach s)) as [r s1] eqn:Ek. apply kern_run in Ek.
        assert (Ep : mc_ports s1 = ms_ports s) by (destruct r; try (destruct Ek as (c & Ek & _)); apply world_run in Ek as [_ Ek]; exact Ek).
        assert (m' = s1) by (destruct r; apply pair_eq in E as [_ <-]; reflexivity). subst m'. rewrite Ep in M'. exact (M' N).
      + exfalso. cbn [madvance] in E. destruct (kern_call RingPrimary (on_world (vm_allocate_fixed t pg len)) (ms_mach s)) as [r s1] eqn:Ek. apply kern_run in Ek.
        assert (Ep : mc_ports s1 = ms_ports s) by (destruct r; try (destruct Ek as (c & Ek & _)); apply world_run in Ek as [_ Ek]; exact Ek).
        assert (m' = s1) by (destruct r; apply pair_eq in E as [_ <-]; reflexivity). subst m'. rewrite Ep in M'. exact (M' N).
      + cbn [madvance] in E. destruct (kern_call RingEntry (make_memory_entry t len pg) (ms_mach s)) as [r s1] eqn:Ek. apply kern_run in Ek.
        destruct r as [[size p0]|e| | |].
        2: { exfalso. destruct Ek as (c & Ek & _). apply entry_spec in Ek as (_ & _ & Ep). apply pair_eq in E as [_ <-]. rewrite Ep in M'. exact (M' N). }
        2,3,4: apply entry_spec in Ek as (_ & _ & []).
        apply entry_spec in Ek as (_ & _ & El & _ & _ & e & _ & Ep). apply pair_eq in E as [<- <-]. rewrite Ep in M'.
        assert (p0 = port) as -> by (destruct (Z.eq_dec p0 port) as [|Np]; [assumption|]; rewrite put_other in M' by congruence; contradiction).
        destruct R as (n & En & _). exists tid, inf, len, pg. split; [reflexivity|]. split; [exact Hp|]. cbn. rewrite put_same. do 2 f_equal.
        rewrite El, En, (npages_mul t HP). reflexivity.
      + exfalso. cbn [madvance] in E. destruct R as (_ & n & o & _ & _ & _ & _ & Hm). change (ms_ports s) with (mc_ports (ms_mach s)) in Hm. destruct (uadd (E:=error) t pg size) as [hf|e| | |]; try (apply pair_eq in E as [_ <-]; exact (M' N)).
        destruct (kern_call RingSecondary (vm_map_fixed t hf size port0) (ms_mach s)) as [r s1] eqn:Ek. apply kern_run in Ek.
        assert (Ep : mc_ports s1 = ms_ports s) by (destruct r; try (destruct Ek as (c & Ek & _)); apply (vm_map_spec t _ _ _ _ _ _ _ Hm) in Ek as [Ek _]; exact Ek).
        assert (m' = s1) by (destruct r; apply pair_eq in E as [_ <-]; reflexivity). subst m'. rewrite Ep in M'. exact (M' N).
      + exfalso. cbn [madvance] in E. destruct (umul (E:=error) t 2 len) as [full|e| | |]; try (apply pair_eq in E as [_ <-]; exact (M' N)).
        unfold on_world in E. destruct (vm_deallocate t pg full (mc_w (ms_mach s))) as [r w1]. apply pair_eq in E as [_ <-]. exact (M' N).
  Qed.
  Lemma mports_path h : forall s s', mok t s -> mtpath t s h s' -> forall port m, ms_ports s port = Some m -> ms_ports s' port = Some m.
  Proof.
    induction h as [|e h IH]; intros s s' K Hp port m M; inversion Hp; subst; [exact M|].
    match goal with A : mev_ok _ _ _, B : mtpath _ _ _ _ |- _ => exact (IH _ _ (mtstep_ok t Ht e s K A) B port m (proj1 (mports_step s e K A) port m M)) end.
  Qed.
End Ledger.
