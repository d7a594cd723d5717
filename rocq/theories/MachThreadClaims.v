(** Lemmas behind the properties of calls in progress on macOS. *)
From Coq Require Import Lia.
From Verif Require Import Base Spec ErrorModel RingSpec RingModel SizeModel SizeProofs SeqProofs OsModel OthersModel MapModel MapSpec OsProofs MapProofs MapCreate MapOps
  ApiModel ApiSpec OthersProofs ApiProofs RingMapModel RingMapSpec MirrorProofs RingMapClaims RingProofs IRingProofs RingWeak MemRingModel MemRingProofs
  ProcModel ProcSpec ProcFrame ProcProofs ProcClaims ThreadModel ThreadSpec ThreadFrame ThreadProofs ThreadInv ThreadClaims ThreadClaims2 ThreadClaims3
  MachModel MachSpec MachProofs MachClaims MachProcModel MachProcSpec MachProcProofs MachThreadModel MachThreadSpec MachThreadFrame MachThreadProofs MachThreadInv.

Section Alone.
  Variable t : target.

  (** ** The stages, run alone, are the call *)
  Definition mgoes (tid : Z) (p : proc) (m : mach) (pd : mpending) (r : tresult) (p' : proc) (ports' : Z -> option mem_entry) : Prop :=
    forall s, ms_p s = pc_set_w p (mc_w m) -> ms_ports s = mc_ports m -> ms_ring s tid = Some pd -> ts_pool (ms_t s) tid = None ->
    exists n s', mfinish t n tid s = (r, s') /\ ms_p s' = p' /\ ms_ports s' = ports' /\ ms_ring s' tid = None /\
      ts_pool (ms_t s') = ts_pool (ms_t s) /\ forall i, i <> tid -> ms_ring s' i = ms_ring s i.

  Lemma at_mach s p m : ms_p s = pc_set_w p (mc_w m) -> ms_ports s = mc_ports m -> ms_mach s = m.
  Proof. intros A B. unfold ms_mach. rewrite A, B. destruct m. reflexivity. Qed.
  Lemma mgoes_more tid p m pd pd' m' r p' ports' : madvance t pd m = (MMore pd', m') -> mgoes tid p m' pd' r p' ports' -> mgoes tid p m pd r p' ports'.
  Proof.
    intros E G s Hs Hq Hp Ht. set (s1 := ms_set s (pc_set_w (ms_p s) (mc_w m')) (mc_ports m') tid (Some pd')).
    destruct (G s1) as (n & s' & F & A & B & C & D & I).
    - unfold s1, ms_p at 1. cbn [ms_set ms_t ts_p]. rewrite Hs. reflexivity.
    - reflexivity.
    - apply put_same.
    - exact Ht.
    - exists (S n), s'. split; [|do 4 (split; [assumption|]); intros i Hi; rewrite (I i Hi); apply put_other, Hi].
      cbn [mfinish mtstep]. rewrite Hp. unfold mgo. rewrite (at_mach s p m Hs Hq), E. fold s1. unfold busy. rewrite (put_same _ _ _ : ms_ring s1 tid = Some pd'). exact F.
  Qed.
  Lemma mgoes_end tid p m pd r p' m' : (forall s, ms_p s = pc_set_w p (mc_w m) -> ms_ports s = mc_ports m -> ms_ring s tid = Some pd ->
      mgo t tid pd s = (r, ms_set s p' (mc_ports m') tid None)) -> mgoes tid p m pd r p' (mc_ports m').
  Proof.
    intros G s Hs Hq Hp Ht. exists 1%nat, (ms_set s p' (mc_ports m') tid None). cbn [mfinish mtstep]. rewrite Hp, (G s Hs Hq Hp). unfold busy.
    cbn [ms_set ms_ring ms_t ts_pool]. rewrite put_same, Ht. do 5 (split; [reflexivity|]).
    intros i Hi. apply put_other, Hi.
  Qed.
  Lemma mgoes_over tid p m pd r m' : madvance t pd m = (MOver r, m') -> mgoes tid p m pd (TRing r) (pc_set_w p (mc_w m')) (mc_ports m').
  Proof. intros E. apply mgoes_end. intros s Hs Hq _. unfold mgo. rewrite (at_mach s p m Hs Hq), E, Hs. reflexivity. Qed.
  Lemma mgoes_made tid p m pd inf pg len m' : madvance t pd m = (MMade inf pg len, m') ->
    mgoes tid p m pd (TRing (Ret (pc_cnt p)))
      {| pc_a := set_w (pc_a p) (mc_w m'); pc_ring := put (pc_ring p) (pc_cnt p) (Some (new_held inf pg len)); pc_cnt := pc_cnt p + 1 |} (mc_ports m').
  Proof. intros E. apply mgoes_end. intros s Hs Hq _. unfold mgo. rewrite (at_mach s p m Hs Hq), E, Hs. reflexivity. Qed.

  Definition mring_end (inf : bool) (len : Z) (p : proc) (x : out error Z * mach) : tresult * (proc * (Z -> option mem_entry)) :=
    match x with
    | (Ret pg, m) => (TRing (Ret (pc_cnt p)),
        ({| pc_a := set_w (pc_a p) (mc_w m); pc_ring := put (pc_ring p) (pc_cnt p) (Some (new_held inf pg len)); pc_cnt := pc_cnt p + 1 |}, mc_ports m))
    | (r, m) => (TRing (failure r), (pc_set_w p (mc_w m), mc_ports m))
    end.
  Definition mgoes_to (tid : Z) (p : proc) (m : mach) (pd : mpending) (x : tresult * (proc * (Z -> option mem_entry))) : Prop :=
    mgoes tid p m pd (fst x) (fst (snd x)) (snd (snd x)).

  Lemma to_more tid p m pd pd' m' x : madvance t pd m = (MMore pd', m') -> mgoes_to tid p m' pd' x -> mgoes_to tid p m pd x.
  Proof. intros E G. exact (mgoes_more _ _ _ _ _ _ _ _ _ E G). Qed.

  Definition undone {A} (addr len : Z) (e : error) (m : mach) : out error A * mach :=
    match umul (E:=error) t 2 len with
    | Ret l => (Err e, snd (on_world (vm_deallocate t addr l) m))
    | _ => (Panic, m)
    end.
  Lemma cleanup_is {A} addr len (k : MT error A) m :
    or_cleanup t addr len k m = match k m with (Err e, m') => undone addr len e m' | x => x end.
  Proof. unfold or_cleanup, undone. destruct (k m) as [[a|e| | |] m']; reflexivity. Qed.
  Lemma goes_undone tid p m inf len addr l e : mgoes_to tid p m (AUndo l addr e) (mring_end inf len p (undone addr l e m)).
  Proof.
    unfold mgoes_to, undone. destruct (umul (E:=error) t 2 l) eqn:E; cbn [mring_end failure fst snd]; apply mgoes_over; cbn [madvance]; rewrite E; reflexivity.
  Qed.

  Lemma goes_mach_ring tid p m inf len : mgoes_to tid p m (AAny inf len) (mring_end inf len p (mach_map_ring t len m)).
  Proof.
    unfold mach_map_ring. unfold MachModel.mbind at 1, MachModel.mout at 1.
    destruct (umul (E:=error) t 2 len) as [full|e| | |] eqn:Eu; try (apply mgoes_over; cbn [madvance]; rewrite Eu; reflexivity).
    unfold MachModel.mbind at 1. destruct (kern_call RingAllocate (on_world (vm_allocate_anywhere t full)) m) as [[addr|e| | |] m1] eqn:E1;
      try (apply mgoes_over; cbn [madvance]; rewrite Eu, E1; reflexivity).
    eapply to_more; [cbn [madvance]; rewrite Eu, E1; reflexivity|].
    unfold MachModel.mbind at 1. rewrite cleanup_is. destruct (kern_call RingPrimary (on_world (vm_allocate_fixed t addr len)) m1) as [[addr2|e| | |] m2] eqn:E2;
      try (apply mgoes_over; cbn [madvance]; rewrite E2; reflexivity).
    2: { eapply to_more; [cbn [madvance]; rewrite E2; reflexivity|].
         pose proof (goes_undone tid p m2 inf len addr len e) as G. unfold undone in *. destruct (umul (E:=error) t 2 len); exact G. }
    eapply to_more; [cbn [madvance]; rewrite E2; reflexivity|].
    unfold MachModel.mbind at 1. rewrite cleanup_is. destruct (kern_call RingEntry (make_memory_entry t len addr2) m2) as [[[size port]|e| | |] m3] eqn:E3;
      try (apply mgoes_over; cbn [madvance]; rewrite E3; reflexivity).
    2: { eapply to_more; [cbn [madvance]; rewrite E3; reflexivity|].
         pose proof (goes_undone tid p m3 inf len addr2 len e) as G. unfold undone in *. destruct (umul (E:=error) t 2 len); exact G. }
    eapply to_more; [cbn [madvance]; rewrite E3; reflexivity|].
    unfold MachModel.mbind at 1, MachModel.mout at 1. destruct (uadd (E:=error) t addr2 size) as [half|e| | |] eqn:Ea;
      try (apply mgoes_over; cbn [madvance]; rewrite Ea; reflexivity).
    unfold MachModel.mbind at 1. rewrite cleanup_is. destruct (kern_call RingSecondary (vm_map_fixed t half size port) m3) as [[x|e| | |] m4] eqn:E4;
      try (apply mgoes_over; cbn [madvance]; rewrite Ea, E4; reflexivity).
    - apply mgoes_made. cbn [madvance]. rewrite Ea, E4. reflexivity.
    - eapply to_more; [cbn [madvance]; rewrite Ea, E4; reflexivity|].
      pose proof (goes_undone tid p m4 inf len addr2 size e) as G. unfold undone in *. destruct (umul (E:=error) t 2 size); exact G.
  Qed.

  (** ** Maps: as on POSIX *)
  Definition with_t (s : msys) (x : tsys) : msys := {| ms_t := x; ms_ports := ms_ports s; ms_ring := ms_ring s |}.
  Lemma finish_posix n : forall tid s r x, ms_ring s tid = None -> finish t Anonymous n tid (ms_t s) = (r, x) -> mfinish t n tid s = (r, with_t s x).
  Proof.
    induction n as [|n IH]; intros tid s r x Hn E; cbn [finish mfinish] in *; [injection E as <- <-; destruct s; reflexivity|].
    cbn [mtstep]. rewrite Hn. unfold on_posix. destruct (tstep t Anonymous (EGo tid) (ms_t s)) as [r1 s1]. unfold busy. cbn [ms_ring ms_t]. rewrite Hn.
    destruct (ts_pool s1 tid); [|injection E as <- <-; reflexivity].
    exact (IH tid {| ms_t := s1; ms_ports := ms_ports s; ms_ring := ms_ring s |} r x Hn E).
  Qed.
  Lemma alone_posix n tid e s r x : ms_ring s tid = None -> starts e = Some tid -> not_ring e -> alone t Anonymous n tid e (ms_t s) = (r, x) ->
    malone t n tid e s = (r, with_t s x).
  Proof.
    intros Hn St N E. unfold malone, alone in *.
    assert (X : mtstep t e s = on_posix (tstep t Anonymous e (ms_t s)) s).
    { destruct e as [c|i mut o path|i mut o fd|i inf hint clock|i]; try discriminate St; injection St as ->; cbn [mtstep]; try (rewrite Hn; reflexivity).
      destruct (N _ _ _ _ eq_refl). }
    rewrite X. destruct (tstep t Anonymous e (ms_t s)) as [r1 s1]. cbn [on_posix]. unfold busy. cbn [ms_ring ms_t]. rewrite Hn.
    destruct (ts_pool s1 tid); [|injection E as <- <-; reflexivity].
    exact (finish_posix n tid (with_t s s1) r x Hn E).
  Qed.

  Lemma new_is hint m : mach_ring_new t hint m =
    match size_round (E:=error) t (size_alloc t) hint with
    | Ret len => match mach_map_ring t len m with (Ret pg, m') => (Ret {| ra_ptr := pg; ra_len := len |}, m') | (r, m') => (failure r, m') end
    | r => (failure r, m)
    end.
  Proof.
    unfold mach_ring_new, MachModel.mbind, MachModel.mout, MachModel.mret. destruct (size_round (E:=error) t (size_alloc t) hint) as [len|e| | |]; try reflexivity.
    destruct (mach_map_ring t len m) as [[pg|e| | |] m']; reflexivity.
  Qed.
  Lemma muninterrupted tid c e s : busy s tid = false -> start_of tid c = Some e ->
    exists n s', malone t n tid e s = (as_tresult (fst (mstep t c {| mp_p := ms_p s; mp_ports := ms_ports s |})), s') /\
      {| mp_p := ms_p s'; mp_ports := ms_ports s' |} = snd (mstep t c {| mp_p := ms_p s; mp_ports := ms_ports s |}) /\
      busy s' tid = false /\ forall i, i <> tid -> ms_ring s' i = ms_ring s i /\ ts_pool (ms_t s') i = ts_pool (ms_t s) i.
  Proof.
    intros Hb H. unfold busy in Hb. destruct (ms_ring s tid) eqn:Hr; [discriminate Hb|]. destruct (ts_pool (ms_t s) tid) eqn:Hp; [discriminate Hb|].
    assert (Map : forall m, c = PMap m -> not_ring e -> starts e = Some tid -> exists n s',
      malone t n tid e s = (as_tresult (fst (mstep t c {| mp_p := ms_p s; mp_ports := ms_ports s |})), s') /\
      {| mp_p := ms_p s'; mp_ports := ms_ports s' |} = snd (mstep t c {| mp_p := ms_p s; mp_ports := ms_ports s |}) /\
      busy s' tid = false /\ forall i, i <> tid -> ms_ring s' i = ms_ring s i /\ ts_pool (ms_t s') i = ts_pool (ms_t s) i).
    { intros m -> N St. destruct (uninterrupted t Anonymous tid _ e (ms_t s) Hp H) as (n & x & A & B & C & D). exists n, (with_t s x).
      rewrite (alone_posix n tid e s _ _ Hr St N A). cbn [mstep mp_p mp_ports]. unfold ms_p. cbn [with_t ms_t ms_ports ms_ring].
      rewrite B. unfold busy. cbn [with_t ms_t ms_ports ms_ring]. rewrite Hr, C.
      destruct (pstep t Anonymous (PMap m) (ts_p (ms_t s))) as [y p']. split; [reflexivity|]. split; [reflexivity|]. split; [reflexivity|]. auto. }
    assert (Ring : forall inf hint clock mk, e = ERing tid inf hint clock -> (forall pg len, mk pg len = new_held inf pg len) -> exists n s',
      malone t n tid e s = (as_tresult (fst (mach_new t mk hint {| mp_p := ms_p s; mp_ports := ms_ports s |})), s') /\
      {| mp_p := ms_p s'; mp_ports := ms_ports s' |} = snd (mach_new t mk hint {| mp_p := ms_p s; mp_ports := ms_ports s |}) /\
      busy s' tid = false /\ forall i, i <> tid -> ms_ring s' i = ms_ring s i /\ ts_pool (ms_t s') i = ts_pool (ms_t s) i).
    { intros inf hint clock mk -> Hk. unfold mach_new, malone. cbn [mp_p mp_ports mtstep]. rewrite new_is. rewrite Hr, Hp.
      change (mp_mach {| mp_p := ms_p s; mp_ports := ms_ports s |}) with (ms_mach s).
      destruct (size_round (E:=error) t (size_alloc t) hint) as [len|er| | |] eqn:Es.
      2,3,4,5: exists O, s; cbn [as_tresult failure fst snd ms_mach mc_w mc_ports]; unfold busy; rewrite Hr, Hp, pc_set_same; auto.
      pose proof (goes_mach_ring tid (ms_p s) (ms_mach s) inf len) as G. unfold mgoes_to in G.
      set (s1 := ms_set s (ms_p s) (ms_ports s) tid (Some (AAny inf len))).
      destruct (G s1) as (n & s' & F & A & B & C & D & I).
      - unfold ms_mach. cbn [mc_w]. rewrite pc_set_same. reflexivity.
      - reflexivity.
      - apply put_same.
      - exact Hp.
      - exists n, s'. unfold busy at 1. rewrite (put_same _ _ _ : ms_ring s1 tid = _), F.
        unfold busy. rewrite C, D. change (ts_pool (ms_t s1)) with (ts_pool (ms_t s)). rewrite Hp, A, B.
        assert (O : forall i, i <> tid -> ms_ring s' i = ms_ring s i /\ ts_pool (ms_t s) i = ts_pool (ms_t s) i)
          by (intros i Hi; split; [rewrite (I i Hi); apply put_other, Hi|reflexivity]).
        clear F A B C D I G.
        destruct (mach_map_ring t len (ms_mach s)) as [[pg|er| | |] m]; cbn [mring_end fst snd as_tresult failure ra_ptr ra_len]; rewrite ?Hk; auto. }
    destruct c as [c|hint clock|hint clock|k o|k o|k]; cbn [start_of] in H; try discriminate H.
    - destruct c; try discriminate H; injection H as <-; apply (Map _ eq_refl); try reflexivity; intros ? ? ? ?; discriminate.
    - injection H as <-. apply (Ring false hint clock); reflexivity.
    - injection H as <-. apply (Ring true hint clock); reflexivity.
  Qed.

  (** ** A thread makes one thing at a time, and ends *)
  Definition one (s : msys) : Prop := forall tid, ms_ring s tid = None \/ ts_pool (ms_t s) tid = None.
  Lemma put_none {A} (f : Z -> option A) k i : f i = None -> put f k None i = None.
  Proof. intros H. unfold put. destruct (i =? k); auto. Qed.
  Lemma tstep_pool e s tid : starts e <> Some tid -> ts_pool s tid = None -> ts_pool (snd (tstep t Anonymous e s)) tid = None.
  Proof.
    intros N H. destruct e as [c|i mut o path|i mut o fd|i inf hint clock|i]; try (rewrite pool_after; [exact H|exact N|discriminate]).
    destruct (Z.eq_dec i tid) as [->|Ni]; [cbn [tstep]; rewrite H; exact H|]. rewrite pool_after; [exact H|exact N|congruence].
  Qed.
  Lemma mtstep_one e s : one s -> one (snd (mtstep t e s)).
  Proof.
    intros O tid. destruct e as [c|i mut o path|i mut o fd|i inf hint clock|i]; cbn [mtstep].
    - destruct (mstep t c {| mp_p := ms_p s; mp_ports := ms_ports s |}) as [x m]. exact (O tid).
    - destruct (ms_ring s i) eqn:Hi; [exact (O tid)|]. destruct (Z.eq_dec tid i) as [->|N].
      + left. unfold on_posix. destruct (tstep t Anonymous _ (ms_t s)). exact Hi.
      + pose proof (pool_after t Anonymous (EOpen i mut o path) (ms_t s) tid ltac:(cbn; congruence) ltac:(discriminate)) as X. unfold on_posix.
        destruct (tstep t Anonymous _ (ms_t s)) as [r x]. cbn [snd ms_ring ms_t] in *. rewrite X. exact (O tid).
    - destruct (ms_ring s i) eqn:Hi; [exact (O tid)|]. destruct (Z.eq_dec tid i) as [->|N].
      + left. unfold on_posix. destruct (tstep t Anonymous _ (ms_t s)). exact Hi.
      + pose proof (pool_after t Anonymous (EMap i mut o fd) (ms_t s) tid ltac:(cbn; congruence) ltac:(discriminate)) as X. unfold on_posix.
        destruct (tstep t Anonymous _ (ms_t s)) as [r x]. cbn [snd ms_ring ms_t] in *. rewrite X. exact (O tid).
    - destruct (ms_ring s i); [exact (O tid)|]. destruct (ts_pool (ms_t s) i) eqn:Hi; [exact (O tid)|].
      destruct (size_round (E:=error) t (size_alloc t) hint); try exact (O tid). cbn [snd ms_set ms_ring ms_t ts_pool].
      destruct (Z.eq_dec tid i) as [->|N]; [right; exact Hi|rewrite put_other by exact N; exact (O tid)].
    - destruct (ms_ring s i) as [pd|] eqn:Hi.
      + assert (Hp : ts_pool (ms_t s) i = None) by (destruct (O i) as [C|C]; [congruence|exact C]).
        unfold mgo. destruct (madvance t pd (ms_mach s)) as [[pd'|inf pg len|r] m']; cbn [snd ms_set ms_ring ms_t ts_pool];
          (destruct (Z.eq_dec tid i) as [->|N]; [right; exact Hp|rewrite put_other by exact N; exact (O tid)]).
      + destruct (O tid) as [C|C]; [left; unfold on_posix; destruct (tstep t Anonymous _ (ms_t s)); exact C|right].
        pose proof (tstep_pool (EGo i) (ms_t s) tid ltac:(discriminate) C) as X. unfold on_posix. destruct (tstep t Anonymous _ (ms_t s)). exact X.
  Qed.
  Lemma reached_one s : mtreached t s -> one s.
  Proof. induction 1 as [w ports W|s e R IH EO]; [intros tid; left; reflexivity|exact (mtstep_one e s IH)]. Qed.

  Lemma mfewer pd m pd' m' : madvance t pd m = (MMore pd', m') ->
    (match pd' with AAny _ _ => 5 | AFixed _ _ _ => 4 | AEntry _ _ _ => 3 | AMap _ _ _ _ _ => 2 | AUndo _ _ _ => 1 end <
     match pd with AAny _ _ => 5 | AFixed _ _ _ => 4 | AEntry _ _ _ => 3 | AMap _ _ _ _ _ => 2 | AUndo _ _ _ => 1 end)%nat.
  Proof.
    destruct pd; cbn [madvance]; intros E.
    - destruct (umul (E:=error) t 2 len); try discriminate E.
      destruct (kern_call RingAllocate (on_world (vm_allocate_anywhere t a)) m) as [[x|e| | |] m1]; try discriminate E. injection E as <- <-. lia.
    - destruct (kern_call RingPrimary (on_world (vm_allocate_fixed t addr len)) m) as [[x|e| | |] m1]; try discriminate E; injection E as <- <-; lia.
    - destruct (kern_call RingEntry (make_memory_entry t len addr) m) as [[[x y]|e| | |] m1]; try discriminate E; injection E as <- <-; lia.
    - destruct (uadd (E:=error) t addr size); try discriminate E.
      destruct (kern_call RingSecondary (vm_map_fixed t a size port) m) as [[x|e| | |] m1]; try discriminate E; injection E as <- <-; lia.
    - destruct (umul (E:=error) t 2 len); discriminate E.
  Qed.
  Lemma left_none s tid : msteps_left s tid = 0%nat -> busy s tid = false.
  Proof.
    unfold msteps_left, busy. destruct (ms_ring s tid) as [pd|]; [destruct pd; discriminate|]. destruct (ts_pool (ms_t s) tid) as [pd|]; [destruct pd; discriminate|reflexivity].
  Qed.
  Lemma left_other e s tid : starts e <> Some tid -> e <> EGo tid -> msteps_left (snd (mtstep t e s)) tid = msteps_left s tid.
  Proof.
    intros N G. unfold msteps_left.
    assert (X : ms_ring (snd (mtstep t e s)) tid = ms_ring s tid /\ ts_pool (ms_t (snd (mtstep t e s))) tid = ts_pool (ms_t s) tid).
    { destruct e as [c|i mut o path|i mut o fd|i inf hint clock|i]; cbn [mtstep starts] in *.
      - destruct (mstep t c {| mp_p := ms_p s; mp_ports := ms_ports s |}) as [x m]. auto.
      - destruct (ms_ring s i); [auto|].
        pose proof (pool_after t Anonymous (EOpen i mut o path) (ms_t s) tid N G) as X. unfold on_posix. destruct (tstep t Anonymous _ (ms_t s)). auto.
      - destruct (ms_ring s i); [auto|].
        pose proof (pool_after t Anonymous (EMap i mut o fd) (ms_t s) tid N G) as X. unfold on_posix. destruct (tstep t Anonymous _ (ms_t s)). auto.
      - destruct (ms_ring s i); [auto|]. destruct (ts_pool (ms_t s) i); [auto|]. destruct (size_round (E:=error) t (size_alloc t) hint); auto.
        cbn [snd ms_set ms_ring ms_t ts_pool]. rewrite put_other by congruence. auto.
      - destruct (ms_ring s i) as [pd|].
        + unfold mgo. destruct (madvance t pd (ms_mach s)) as [[pd'|inf pg len|r] m']; cbn [snd ms_set ms_ring ms_t ts_pool]; rewrite put_other by congruence; auto.
        + pose proof (pool_after t Anonymous (EGo i) (ms_t s) tid N G) as X. unfold on_posix. destruct (tstep t Anonymous _ (ms_t s)). auto. }
    destruct X as [-> ->]. reflexivity.
  Qed.
  Lemma left_go s tid : one s -> (msteps_left (snd (mtstep t (EGo tid) s)) tid <= Nat.pred (msteps_left s tid))%nat.
  Proof.
    intros O. cbn [mtstep]. unfold msteps_left at 2. destruct (ms_ring s tid) as [pd|] eqn:Hr.
    - assert (Hp : ts_pool (ms_t s) tid = None) by (destruct (O tid) as [C|C]; [congruence|exact C]).
      unfold mgo. destruct (madvance t pd (ms_mach s)) as [[pd'|inf pg len|r] m'] eqn:E; cbn [snd]; unfold msteps_left; cbn [ms_set ms_ring ms_t ts_pool];
        rewrite put_same, ?Hp; try lia. pose proof (mfewer _ _ _ _ E). destruct pd, pd'; lia.
    - destruct (ts_pool (ms_t s) tid) as [pd|] eqn:Hp; unfold on_posix; cbn [tstep]; rewrite Hp.
      + unfold go. destruct (advance t Anonymous pd (pc_w (ts_p (ms_t s)))) as [oc w'] eqn:E. destruct oc as [pd'|mut own o fd m|inf pg len|r];
          cbn [snd]; unfold msteps_left; cbn [ms_ring ms_t set_pool ts_pool]; rewrite Hr, put_same; try lia.
        destruct (fewer t Anonymous pd _ pd' w' (or_introl eq_refl) E). lia.
      + cbn [snd]. unfold msteps_left. cbn [ms_ring ms_t]. rewrite Hr, Hp. lia.
  Qed.
  Lemma mends h : forall s tid, one s -> Forall (fun e => starts e <> Some tid) h -> (msteps_left s tid <= own_steps tid h)%nat ->
    busy (snd (mtrun t h s)) tid = false.
  Proof.
    induction h as [|e h IH]; intros s tid O F L.
    - apply left_none. cbn in *. lia.
    - apply Forall_cons_iff in F as [N F]. cbn [mtrun].
      assert (X : busy (snd (mtrun t h (snd (mtstep t e s)))) tid = false).
      2: { destruct (mtstep t e s) as [x s1]. cbn [snd] in X. destruct (mtrun t h s1) as [xs s2]. exact X. }
      apply IH; [exact (mtstep_one e s O)|exact F|].
      assert (D : e = EGo tid \/ (e <> EGo tid /\ own_steps tid (e :: h) = own_steps tid h)).
      { destruct e; try (right; split; [discriminate|reflexivity]). cbn [own_steps]. destruct (Z.eqb_spec tid0 tid); [left; congruence|right; split; congruence]. }
      destruct D as [->|[D1 D2]].
      + cbn [own_steps] in L. rewrite Z.eqb_refl in L. pose proof (left_go s tid O). lia.
      + rewrite (left_other e s tid N D1). lia.
  Qed.
End Alone.
