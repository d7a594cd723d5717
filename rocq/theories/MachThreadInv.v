(** The invariant of every interleaving on macOS, and that every event keeps it. *)
From Coq Require Import Lia.
From Verif Require Import Base Spec ErrorModel RingSpec RingModel SizeModel SizeProofs OsModel OthersModel MapModel MapSpec OsProofs MapProofs MapCreate MapOps
  ApiModel ApiSpec OthersProofs ApiProofs RingMapModel RingMapSpec MirrorProofs RingMapClaims RingProofs MemRingModel MemRingProofs
  ProcModel ProcSpec ProcFrame ProcProofs ThreadModel ThreadSpec ThreadFrame ThreadProofs ThreadInv
  MachModel MachSpec MachProofs MachClaims MachProcModel MachProcSpec MachProcProofs MachThreadModel MachThreadSpec MachThreadFrame MachThreadProofs.

Section Inv.
  Variable t : target.
  Hypothesis Ht : posix_target t.
  Notation P := (t_page t).
  Let Hg : good_target t := proj1 Ht.
  Let HP : 0 < P.
  Proof. exact (pow2_pos _ (proj1 (proj2 Hg))). Qed.

  Record mok (s : msys) : Prop := {
    mk_t : tok t (ms_t s);
    mk_only : maps_only (ms_t s);
    mk_ring : forall tid pd, ms_ring s tid = Some pd -> mring_ok t (pc_w (ms_p s)) (ms_ports s) pd;
    mk_pages : forall i j a b q, ms_ring s i = Some a -> ms_ring s j = Some b -> i <> j -> mpd_page t a q -> mpd_page t b q -> False;
    mk_apart : forall tid pd, ms_ring s tid = Some pd -> apart t (mpd_page t pd) (ms_p s)
  }.

  Lemma mpool_cases (f : Z -> option mpending) k x i v : put f k x i = Some v -> (i = k /\ x = Some v) \/ (i <> k /\ f i = Some v).
  Proof. unfold put. destruct (Z.eqb_spec i k); auto. Qed.
  Lemma map_pend w w' pd : map_stage pd = true -> w_fd w' = w_fd w -> pend_ok t w pd -> pend_ok t w' pd.
  Proof. intros M E. destruct pd; try discriminate M; cbn [pend_ok]; unfold fd_open; rewrite ?E; auto. Qed.
  Lemma map_tok s p : tok t s -> maps_only s -> pok t p -> w_fd (pc_w p) = w_fd (pc_w (ts_p s)) -> tok t {| ts_p := p; ts_pool := ts_pool s |}.
  Proof.
    intros [Tk Te Tp Tf Tm Tr] M K E. split; cbn [ts_p ts_pool]; try assumption.
    - intros tid pd Hp. exact (map_pend _ _ _ (M _ _ Hp) E (Te _ _ Hp)).
    - intros i a k l q Ha _ _ Hq. exact (map_stage_page t _ _ (M _ _ Ha) Hq).
    - intros i a k h q Ha _ _ Hq. exact (map_stage_page t _ _ (M _ _ Ha) Hq).
  Qed.

  (** ** A kernel call of a ring being made *)
  Section Stage.
    Variables (s : msys) (tid : Z) (pd : mpending) (m' : mach) (oc : moutcome).
    Hypothesis K : mok s.
    Hypothesis Hp : ms_ring s tid = Some pd.
    Hypothesis St : mstaged t pd (ms_mach s) m' oc.

    Lemma mstage_api : api_ok t (set_w (pc_a (ms_p s)) (mc_w m')).
    Proof.
      pose proof (pk_api _ _ (tk_proc _ _ (mk_t _ K))) as A. pose proof A as [W C L Ap]. split; cbn; try assumption; [exact (sg_wf _ _ _ _ _ St)|].
      intros k l Hl. apply (backed_kept t (pc_w (ms_p s))); [exact (L k l Hl)|]. intros q e Ho He.
      exists e. split; [|apply stays_kept, stays_refl]. apply (sg_vm _ _ _ _ _ St q e); [|exact He].
      intros Hq. exact (proj1 (mk_apart _ K _ _ Hp) _ _ _ Hl Ho Hq).
    Qed.
    Lemma mstage_home k h n o m : pc_ring (ms_p s) k = Some h -> at_home t (pc_w (ms_p s)) h n o m -> at_home t (mc_w m') h n o m.
    Proof.
      intros Hk H. apply (home_kept t Ht _ (mc_w m') h n o m H).
      - intros Pv. apply (sg_obj _ _ _ _ _ St o Pv). intros q e He Ho Hq. cbn [ms_mach mc_w] in He.
        exact (proj2 (mk_apart _ K _ _ Hp) _ _ _ Hk (home_only t Ht _ _ _ _ _ _ _ H He Ho) Hq).
      - intros q e Hq He. exists e. split; [|apply stays_refl]. apply (sg_vm _ _ _ _ _ St q e); [|exact He].
        intros Hq'. exact (proj2 (mk_apart _ K _ _ Hp) _ _ _ Hk Hq Hq').
    Qed.
    Lemma mstage_pok : pok t (pc_set_w (ms_p s) (mc_w m')).
    Proof.
      pose proof (tk_proc _ _ (mk_t _ K)) as [A C R RR RM]. split; cbn [pc_set_w pc_a pc_ring pc_cnt]; try assumption; [exact mstage_api|].
      intros k h Hk. destruct (R k h Hk) as (F & n & o & m & H). split; [exact F|]. exists n, o, m. exact (mstage_home _ _ _ _ _ Hk H).
    Qed.
    Lemma mstage_other j b : j <> tid -> ms_ring s j = Some b -> mring_ok t (mc_w m') (mc_ports m') b.
    Proof.
      intros N Hb. apply (ring_kept t Ht (pc_w (ms_p s)) (ms_ports s)); [exact (mk_ring _ K _ _ Hb)| |exact (sg_ports _ _ _ _ _ St)]. split.
      - intros q e Hq He. exists e. split; [|apply stays_refl]. apply (sg_vm _ _ _ _ _ St q e); [|exact He].
        intros Hq'. exact (mk_pages _ K _ _ _ _ _ Hb Hp N Hq Hq').
      - intros o Pv Pg. apply (sg_obj _ _ _ _ _ St o Pv). intros q e He Ho Hq. exact (mk_pages _ K _ _ _ _ _ Hb Hp N (Pg q e He Ho) Hq).
    Qed.
    Lemma free_mring q j b : ms_ring s j = Some b -> w_vm (pc_w (ms_p s)) q = None -> mpd_page t b q -> False.
    Proof. intros Hb F Hq. destruct (ring_mapped0 t Ht _ _ _ _ (mk_ring _ K _ _ Hb) Hq) as (e & He). congruence. Qed.
  End Stage.

  Lemma mgo_ok s tid pd : mok s -> ms_ring s tid = Some pd -> mok (snd (mgo t tid pd s)).
  Proof.
    intros K Hp. unfold mgo. destruct (madvance t pd (ms_mach s)) as [oc m'] eqn:E.
    pose proof (madv_staged t Ht _ _ _ _ (ok_wf _ _ (pk_api _ _ (tk_proc _ _ (mk_t _ K))) : wf (mc_w (ms_mach s))) (mk_ring _ K _ _ Hp) E) as St.
    pose proof (sg_out _ _ _ _ _ St) as So. pose proof (mstage_pok _ _ _ _ _ K Hp St) as PK. pose proof (mstage_other _ _ _ _ _ K Hp St) as PO.
    pose proof (sg_fd _ _ _ _ _ St : w_fd (mc_w m') = w_fd (pc_w (ts_p (ms_t s)))) as Fd. pose proof K as [Kt Ko Kr Kp Ka].
    destruct oc as [pd'|inf pg len|r]; cbn [snd].
    - destruct So as [Pd' Sub]. split; unfold ms_p; cbn [ms_set ms_t ms_ring ms_ports ts_p].
      + exact (map_tok _ _ Kt Ko PK Fd).
      + exact Ko.
      + intros i a Ha. apply mpool_cases in Ha as [[-> [= <-]]|[N Ha]]; [exact Pd'|exact (PO i a N Ha)].
      + intros i j a b q Ha Hb N Qa Qb. apply mpool_cases in Ha as [[-> [= <-]]|[Na Ha]]; apply mpool_cases in Hb as [[-> [= <-]]|[Nb Hb]]; try congruence.
        * destruct (Sub q Qa) as [Q|Q]; [exact (Kp _ _ _ _ _ Hp Hb N Q Qb)|exact (free_mring _ K q _ _ Hb Q Qb)].
        * destruct (Sub q Qb) as [Q|Q]; [exact (Kp _ _ _ _ _ Ha Hp N Qa Q)|exact (free_mring _ K q _ _ Ha Q Qa)].
        * exact (Kp _ _ _ _ _ Ha Hb N Qa Qb).
      + intros i a Ha. apply mpool_cases in Ha as [[-> [= <-]]|[N Ha]]; [|exact (Ka _ _ Ha)]. destruct (Ka _ _ Hp) as [Am Ar]. split.
        * intros k l q Hl Ho Hq. cbn in Hl. destruct (Sub q Hq) as [Q|Q]; [exact (Am _ _ _ Hl Ho Q)|exact (free_map t _ Kt q _ _ Hl Q Ho)].
        * intros k h q Hl Ho Hq. cbn in Hl. destruct (Sub q Hq) as [Q|Q]; [exact (Ar _ _ _ Hl Ho Q)|exact (free_ring t Ht _ Kt q _ _ Hl Q Ho)].
    - destruct So as (n & o & Hh & Fit & Sub). set (h0 := new_held inf pg len) in *. clearbody h0. destruct (Ka _ _ Hp) as [Am Ar].
      pose proof PK as [A' C' R' RR' RM']. cbn [pc_set_w pc_a pc_ring pc_cnt] in *.
      split; unfold ms_p; cbn [ms_set ms_t ms_ring ms_ports ts_p].
      + apply map_tok; [exact Kt|exact Ko| |exact Fd]. split; cbn [pc_a pc_ring pc_cnt]; [exact A'| | | |].
        * intros k Hk. fold (ms_p s) in *. rewrite put_other by lia. apply C'. lia.
        * intros k h Hk. apply put_cases in Hk as [[_ ->]|[_ Hk]]; [|exact (R' k h Hk)]. split; [exact Fit|]. exists n, o, (fun _ => 0). exact Hh.
        * intros k1 k2 h1 h2 q H1 H2 N P1 P2. apply put_cases in H1 as [[-> ->]|[N1 H1]]; apply put_cases in H2 as [[-> ->]|[N2 H2]].
          -- contradiction.
          -- exact (Ar _ _ _ H2 P2 (Sub q P1)).
          -- exact (Ar _ _ _ H1 P1 (Sub q P2)).
          -- exact (RR' _ _ _ _ q H1 H2 N P1 P2).
        * intros k h k' l q Hk Hl P1 P2. cbn in Hl. apply put_cases in Hk as [[-> ->]|[N1 Hk]]; [|exact (RM' _ _ _ _ q Hk Hl P1 P2)].
          exact (Am _ _ _ Hl P2 (Sub q P1)).
      + exact Ko.
      + intros i a Ha. apply mpool_cases in Ha as [[_ Ha]|[N Ha]]; [discriminate Ha|exact (PO i a N Ha)].
      + intros i j a b q Ha Hb. apply mpool_cases in Ha as [[_ Ha]|[_ Ha]]; [discriminate Ha|]. apply mpool_cases in Hb as [[_ Hb]|[_ Hb]]; [discriminate Hb|].
        exact (Kp _ _ _ _ q Ha Hb).
      + intros i a Ha. apply mpool_cases in Ha as [[_ Ha]|[N Ha]]; [discriminate Ha|]. destruct (Ka _ _ Ha) as [Bm Br]. split; [exact Bm|].
        intros k h q Hk Ho Hq. cbn in Hk. apply put_cases in Hk as [[_ ->]|[_ Hk]]; [exact (Kp _ _ _ _ q Ha Hp N Hq (Sub q Ho))|exact (Br _ _ _ Hk Ho Hq)].
    - split; unfold ms_p; cbn [ms_set ms_t ms_ring ms_ports ts_p].
      + exact (map_tok _ _ Kt Ko PK Fd).
      + exact Ko.
      + intros i a Ha. apply mpool_cases in Ha as [[_ Ha]|[N Ha]]; [discriminate Ha|exact (PO i a N Ha)].
      + intros i j a b q Ha Hb. apply mpool_cases in Ha as [[_ Ha]|[_ Ha]]; [discriminate Ha|]. apply mpool_cases in Hb as [[_ Hb]|[_ Hb]]; [discriminate Hb|].
        exact (Kp _ _ _ _ q Ha Hb).
      + intros i a Ha. apply mpool_cases in Ha as [[_ Ha]|[N Ha]]; [discriminate Ha|exact (Ka _ _ Ha)].
  Qed.

  (** ** A step that is as on POSIX *)
  Lemma posix_ok e s : mok s -> ev_ok t (ms_t s) e -> not_ring e -> mok (snd (on_posix (tstep t Anonymous e (ms_t s)) s)).
  Proof.
    intros K EO N. pose proof (tstep_ok t Anonymous Ht e _ (mk_t _ K) EO) as K'. pose proof (posix_only t e _ (mk_only _ K) N) as M'.
    assert (Q : forall tid pd, ms_ring s tid = Some pd -> _) by (intros tid pd Hp;
      exact (posix_keeps t Ht e _ (mpd_page t pd) (mk_t _ K) (mk_only _ K) EO N (fun q => ring_mapped0 t Ht _ _ _ q (mk_ring _ K _ _ Hp)) (mk_apart _ K _ _ Hp))).
    destruct (tstep t Anonymous e (ms_t s)) as [r s1]. cbn [on_posix snd] in *. split; unfold ms_p; cbn [ms_t ms_ring ms_ports]; [exact K'|exact M'| | |].
    - intros tid pd Hp. exact (ring_kept t Ht _ _ _ _ _ (mk_ring _ K _ _ Hp) (proj1 (Q _ _ Hp)) (fun _ _ X => X)).
    - exact (mk_pages _ K).
    - intros tid pd Hp. exact (proj2 (Q _ _ Hp)).
  Qed.
  Lemma call_posix c s : mok s -> one_step c = true -> mtstep t (ECall c) s = on_posix (tstep t Anonymous (ECall c) (ms_t s)) s.
  Proof.
    intros K On. cbn [mtstep tstep]. rewrite (mstep_posix t Ht c (ms_p s) (ms_ports s) (tk_proc _ _ (mk_t _ K)) On). unfold ms_p.
    destruct (pstep t Anonymous c (ts_p (ms_t s))) as [x p']. reflexivity.
  Qed.
  (** Every event is a POSIX one, or one of a ring. *)
  Lemma mtstep_posix e s : mok s -> ev_ok t (ms_t s) e -> not_ring e -> (forall tid, e = EGo tid -> ms_ring s tid = None) ->
    mtstep t e s = on_posix (tstep t Anonymous e (ms_t s)) s \/ mtstep t e s = (TNone, s).
  Proof.
    intros K EO N G. destruct e as [c|tid mut o path|tid mut o fd|tid inf hint clock|tid].
    - left. apply call_posix; [exact K|apply EO].
    - cbn [mtstep]. destruct (ms_ring s tid); auto.
    - cbn [mtstep]. destruct (ms_ring s tid); auto.
    - destruct (N _ _ _ _ eq_refl).
    - left. cbn [mtstep]. rewrite (G tid eq_refl). reflexivity.
  Qed.

  Lemma round_half hint len : is_usize t hint -> (t_checks t = true \/ hint <= 2 ^ (t_bits t - 1) - t_alloc t) ->
    size_round (E:=error) t (size_alloc t) hint = Ret len -> t_checks t = true \/ len < 2 ^ (t_bits t - 1).
  Proof.
    intros U [C|L] E; [left; exact C|right]. pose proof (round_cases t Hg hint U) as Rc. rewrite E in Rc. destruct Rc as [Hl Rc].
    destruct (bits_half t Hg) as [B1 B2]. destruct (Z.eq_dec len 0) as [->|N]; [exact B2|].
    destruct (Rc ltac:(unfold is_usize in Hl; lia)) as (D & _ & M). pose proof Hg as (_ & _ & Ha & _). pose proof (pow2_pos _ Ha) as Ha0.
    set (c := rup (t_alloc t) hint). pose proof (rup_spec (t_alloc t) hint Ha0) as [R1 R2]. fold c in R1, R2.
    pose proof (M c R1 ltac:(lia)). lia.
  Qed.

  Theorem mtstep_ok e s : mok s -> mev_ok t s e -> mok (snd (mtstep t e s)).
  Proof.
    intros K [EO MO].
    assert (Ps : not_ring e -> (forall tid, e = EGo tid -> ms_ring s tid = None) -> mok (snd (mtstep t e s))).
    { intros N G. destruct (mtstep_posix e s K EO N G) as [->| ->]; [exact (posix_ok e s K EO N)|exact K]. }
    destruct e as [c|tid mut o path|tid mut o fd|tid inf hint clock|tid]; try (apply Ps; [intros ? ? ? ?; discriminate|discriminate]).
    - cbn [mtstep]. destruct (ms_ring s tid) eqn:N0; [exact K|]. destruct (ts_pool (ms_t s) tid); [exact K|].
      destruct (size_round (E:=error) t (size_alloc t) hint) as [len|e| | |] eqn:Er; try exact K. cbn [snd].
      destruct (round_pages t Ht _ _ EO Er) as [U D]. pose proof (round_half _ _ EO MO Er) as C. pose proof K as [Kt Ko Kr Kp Ka].
      split; unfold ms_p; cbn [ms_set ms_t ms_ring ms_ports ts_p].
      + destruct (ms_t s). exact Kt.
      + exact Ko.
      + intros i a Ha. apply mpool_cases in Ha as [[_ [= <-]]|[_ Ha]]; [exact (conj U (conj D C))|exact (Kr _ _ Ha)].
      + intros i j a b q Ha Hb N Qa Qb. apply mpool_cases in Ha as [[_ [= <-]]|[_ Ha]]; [exact Qa|]. apply mpool_cases in Hb as [[_ [= <-]]|[_ Hb]]; [exact Qb|].
        exact (Kp _ _ _ _ q Ha Hb N Qa Qb).
      + intros i a Ha. apply mpool_cases in Ha as [[_ [= <-]]|[_ Ha]]; [split; intros ? ? ? _ _ []|exact (Ka _ _ Ha)].
    - destruct (ms_ring s tid) as [pd|] eqn:Hp.
      + cbn [mtstep]. rewrite Hp. exact (mgo_ok s tid pd K Hp).
      + apply Ps; [intros ? ? ? ?; discriminate|]. intros i [= <-]. exact Hp.
  Qed.
  Lemma midle_ok w ports : wf w -> mok (midle w ports).
  Proof. intros W. split; cbn; try discriminate. exact (idle_ok t w W). Qed.
  Theorem mtreached_ok s : mtreached t s -> mok s.
  Proof. induction 1 as [w ports W|s e R IH EO]; [exact (midle_ok w ports W)|exact (mtstep_ok e s IH EO)]. Qed.
End Inv.
