(** The invariant of every interleaving, and that every event keeps it. *)
From Coq Require Import Lia.
From Verif Require Import Base Spec ErrorModel RingSpec RingModel SizeModel SizeProofs OsModel OthersModel MapModel MapSpec OsProofs MapProofs MapCreate MapOps
  ApiModel ApiSpec OthersProofs ApiProofs RingMapModel RingMapSpec MirrorProofs RingMapClaims RingProofs MemRingModel MemRingProofs
  ProcModel ProcSpec ProcFrame ProcProofs ThreadModel ThreadSpec ThreadFrame ThreadProofs.

Section Inv.
  Variable t : target.
  Variable plat : platform.
  Hypothesis Ht : posix_target t.
  Notation P := (t_page t).
  Let Hg : good_target t := proj1 Ht.
  Let HP : 0 < P.
  Proof. exact (pow2_pos _ (proj1 (proj2 Hg))). Qed.

  Record tok (s : tsys) : Prop := {
    tk_proc : pok t (ts_p s);
    tk_pend : forall tid pd, ts_pool s tid = Some pd -> pend_ok t (pc_w (ts_p s)) pd;
    tk_pages : forall i j a b q, ts_pool s i = Some a -> ts_pool s j = Some b -> i <> j -> pd_page t a q -> pd_page t b q -> False;
    tk_fds : forall i j a b fd, ts_pool s i = Some a -> ts_pool s j = Some b -> i <> j -> pd_owns a = true -> pd_fd a = Some fd -> pd_fd b <> Some fd;
    tk_maps : forall i a k l q, ts_pool s i = Some a -> a_live (pc_a (ts_p s)) k = Some l -> own_page t (l_map l) q -> pd_page t a q -> False;
    tk_rings : forall i a k h q, ts_pool s i = Some a -> pc_ring (ts_p s) k = Some h -> ring_page t h q -> pd_page t a q -> False
  }.

  Lemma stays_kept e e' : stays e e' -> kept e e'.
  Proof.
    intros [(A1 & A2 & A3 & A4 & A5 & A6 & A7 & A8) C]. unfold kept. repeat (match goal with |- _ /\ _ => split end); try congruence.
    intros Sh Co. destruct C as [C|[C _]]; congruence.
  Qed.
  Lemma pool_cases (f : Z -> option pending) k x i v : put f k x i = Some v -> (i = k /\ x = Some v) \/ (i <> k /\ f i = Some v).
  Proof. unfold put. destruct (Z.eqb_spec i k); auto. Qed.
  Lemma ring_mapped p k h q : pok t p -> pc_ring p k = Some h -> ring_page t h q -> exists e, w_vm (pc_w p) q = Some e.
  Proof.
    intros K Hk Hq. destruct (pk_ring _ _ K _ _ Hk) as (_ & n & o & m & H).
    destruct (home_entry t Ht _ _ _ _ _ _ H Hq) as (e & He & _). exists e. exact He.
  Qed.

  (** ** A stage *)
  Section Stage.
    Variables (s : tsys) (tid : Z) (pd : pending) (w' : world) (out : outcome).
    Hypothesis K : tok s.
    Hypothesis Hp : ts_pool s tid = Some pd.
    Hypothesis St : staged t pd (pc_w (ts_p s)) w' out.

    Lemma stage_api : api_ok t (set_w (pc_a (ts_p s)) w').
    Proof.
      pose proof (pk_api _ _ (tk_proc _ K)) as A. pose proof A as [W C L Ap]. split; cbn; try assumption; [exact (st_wf _ _ _ _ _ St)|].
      intros k l Hl. apply (backed_kept t (pc_w (ts_p s))); [exact (L k l Hl)|]. intros q e Ho He.
      destruct (st_vm _ _ _ _ _ St q e) as (e' & He' & S); [|exact He|].
      - intros Hq. exact (tk_maps _ K _ _ _ _ _ Hp Hl Ho Hq).
      - exists e'. split; [exact He'|exact (stays_kept _ _ S)].
    Qed.
    Lemma stage_home k h n o m : pc_ring (ts_p s) k = Some h -> at_home t (pc_w (ts_p s)) h n o m -> at_home t w' h n o m.
    Proof.
      intros Hk H. apply (home_kept t Ht _ w' h n o m H (st_safe _ _ _ _ _ St o)). intros q e Hq He.
      destruct (st_vm _ _ _ _ _ St q e) as (e' & He' & S); [|exact He|].
      - intros Hq'. exact (tk_rings _ K _ _ _ _ _ Hp Hk Hq Hq').
      - exists e'. split; [exact He'|exact S].
    Qed.
    Lemma stage_ring k h : pc_ring (ts_p s) k = Some h -> h_fit t h /\ exists n o m, at_home t w' h n o m.
    Proof.
      intros Hk. destruct (pk_ring _ _ (tk_proc _ K) _ _ Hk) as (F & n & o & m & H). split; [exact F|].
      exists n, o, m. exact (stage_home _ _ _ _ _ Hk H).
    Qed.
    Lemma stage_pok : pok t (pc_set_w (ts_p s) w').
    Proof.
      pose proof (tk_proc _ K) as [A C R RR RM]. split; cbn [pc_set_w pc_a pc_ring pc_cnt]; try assumption; [exact stage_api|exact stage_ring].
    Qed.
    (** The other calls in progress. *)
    Lemma stage_keeps j b : j <> tid -> ts_pool s j = Some b -> keeps t b (pc_w (ts_p s)) w'.
    Proof.
      intros N Hb. split.
      - intros fd E. destruct (pend_open t Ht _ _ _ (tk_pend _ K _ _ Hb) E) as [f Hf]. rewrite Hf. apply (st_fd _ _ _ _ _ St); [exact Hf|].
        intros Ow E'. exact (tk_fds _ K _ _ _ _ _ Hp Hb (not_eq_sym N) Ow E' E).
      - intros fd o Ow E F0 Hh _. apply (st_hid _ _ _ _ _ St fd o F0); [|exact Hh].
        exact (tk_fds _ K _ _ _ _ _ Hb Hp N Ow E).
      - intros q e Hq He. apply (st_vm _ _ _ _ _ St); [|exact He]. intros Hq'. exact (tk_pages _ K _ _ _ _ _ Hb Hp N Hq Hq').
    Qed.
    Lemma stage_pend j b : j <> tid -> ts_pool s j = Some b -> pend_ok t w' b.
    Proof. intros N Hb. exact (pend_kept t Ht _ _ _ (tk_pend _ K _ _ Hb) (stage_keeps j b N Hb)). Qed.

    (** What is mapped is not what was free. *)
    Lemma free_pend q j b : j <> tid -> ts_pool s j = Some b -> w_vm (pc_w (ts_p s)) q = None -> pd_page t b q -> False.
    Proof. intros N Hb F Hq. destruct (pend_mapped t Ht _ _ _ (tk_pend _ K _ _ Hb) Hq) as (e & He). congruence. Qed.
    Lemma free_ring q k h : pc_ring (ts_p s) k = Some h -> w_vm (pc_w (ts_p s)) q = None -> ring_page t h q -> False.
    Proof. intros Hk F Hq. destruct (ring_mapped _ _ _ _ (tk_proc _ K) Hk Hq) as (e & He). congruence. Qed.
    Lemma free_map q k l : a_live (pc_a (ts_p s)) k = Some l -> w_vm (pc_w (ts_p s)) q = None -> own_page t (l_map l) q -> False.
    Proof. intros Hk F Hq. destruct (own_mapped_live t _ _ _ _ (pk_api _ _ (tk_proc _ K)) Hk Hq) as (e & He). unfold pc_w in F. congruence. Qed.
  End Stage.

  Lemma go_ok s tid pd : tok s -> ts_pool s tid = Some pd -> tok (snd (go t plat tid pd s)).
  Proof.
    intros K Hp. unfold go. destruct (advance t plat pd (pc_w (ts_p s))) as [out w'] eqn:E.
    pose proof (adv_staged t plat Ht _ _ _ _ (ok_wf _ _ (pk_api _ _ (tk_proc _ K))) (tk_pend _ K _ _ Hp) E) as St.
    pose proof (st_out _ _ _ _ _ St) as So. pose proof (stage_pok _ _ _ _ _ K Hp St) as PK.
    pose proof (stage_pend _ _ _ _ _ K Hp St) as PE. pose proof K as [_ _ Tp Tf Tm Tr].
    destruct out as [pd'|mut own o fd m|inf pg len|r]; cbn [snd].
    - destruct So as (Pd' & Sub & Fds). split; cbn [set_pool ts_p ts_pool]; [exact PK| | | | |].
      + intros i a Ha. apply pool_cases in Ha as [[-> [= <-]]|[N Ha]]; [exact Pd'|exact (PE i a N Ha)].
      + intros i j a b q Ha Hb N Qa Qb. apply pool_cases in Ha as [[-> [= <-]]|[Na Ha]]; apply pool_cases in Hb as [[-> [= <-]]|[Nb Hb]]; try congruence.
        * destruct (Sub q Qa) as [Q|Q]; [exact (Tp _ _ _ _ _ Hp Hb N Q Qb)|exact (free_pend _ _ K q _ _ Nb Hb Q Qb)].
        * destruct (Sub q Qb) as [Q|Q]; [exact (Tp _ _ _ _ _ Ha Hp N Qa Q)|exact (free_pend _ _ K q _ _ Na Ha Q Qa)].
        * exact (Tp _ _ _ _ _ Ha Hb N Qa Qb).
      + intros i j a b fd Ha Hb N Ow Fa Fb. apply pool_cases in Ha as [[-> [= <-]]|[Na Ha]]; apply pool_cases in Hb as [[-> [= <-]]|[Nb Hb]]; try congruence.
        * destruct Fds as [[F1 F2]|F]; [rewrite F1 in Ow; rewrite F2 in Fa; exact (Tf _ _ _ _ _ Hp Hb N Ow Fa Fb)|].
          destruct (pend_open t Ht _ _ _ (tk_pend _ K _ _ Hb) Fb) as [f Hf]. pose proof (F fd Fa) as F0. unfold pc_w in *. congruence.
        * destruct Fds as [[F1 F2]|F]; [rewrite F2 in Fb; exact (Tf _ _ _ _ _ Ha Hp N Ow Fa Fb)|].
          destruct (pend_open t Ht _ _ _ (tk_pend _ K _ _ Ha) Fa) as [f Hf]. pose proof (F fd Fb) as F0. unfold pc_w in *. congruence.
        * exact (Tf _ _ _ _ _ Ha Hb N Ow Fa Fb).
      + intros i a k l q Ha Hl Ho Qa. cbn in Hl. apply pool_cases in Ha as [[-> [= <-]]|[N Ha]]; [|exact (Tm _ _ _ _ _ Ha Hl Ho Qa)].
        destruct (Sub q Qa) as [Q|Q]; [exact (Tm _ _ _ _ _ Hp Hl Ho Q)|exact (free_map _ K q _ _ Hl Q Ho)].
      + intros i a k h q Ha Hl Ho Qa. cbn in Hl. apply pool_cases in Ha as [[-> [= <-]]|[N Ha]]; [|exact (Tr _ _ _ _ _ Ha Hl Ho Qa)].
        destruct (Sub q Qa) as [Q|Q]; [exact (Tr _ _ _ _ _ Hp Hl Ho Q)|exact (free_ring _ K q _ _ Hl Q Ho)].
    - destruct So as ((f & Hf & Fl & B) & Fr). destruct (file_live mut o w' fd m) as [lm lmut lobj loff lprot lwr] eqn:El.
      injection Fl as -> -> -> -> -> ->. rewrite <- El.
      assert (Elm : l_map (file_live mut o w' fd m) = m) by (rewrite El; reflexivity).
      assert (Bl : backed t w' (l_map (file_live mut o w' fd m)) (l_obj (file_live mut o w' fd m)) (l_off (file_live mut o w' fd m))
                     (l_shared (file_live mut o w' fd m)) (l_maxw (file_live mut o w' fd m))) by (rewrite El; exact B).
      clear El. set (l0 := file_live mut o w' fd m) in *. clearbody l0. subst m.
      pose proof (pk_api _ _ (tk_proc _ K)) as A. pose proof PK as [[W' C' L' Ap'] Cn R' RR' RM'].
      split; cbn [set_pool ts_p ts_pool].
      + split; cbn [pc_a pc_ring pc_cnt pc_w add_live a_w a_live]; try assumption.
        * split; cbn [add_live a_w a_live a_cnt]; [exact W'| | |].
          -- intros k Hk. rewrite put_other by lia. apply C'. cbn. lia.
          -- intros k l Hl. apply put_cases in Hl as [[_ ->]|[_ Hl]]; [exact Bl|exact (L' k l Hl)].
          -- intros k1 k2 l1 l2 q H1 H2 N P1 P2. apply put_cases in H1 as [[-> ->]|[N1 H1]]; apply put_cases in H2 as [[-> ->]|[N2 H2]].
             ++ contradiction.
             ++ exact (free_map _ K q _ _ H2 (Fr q P1) P2).
             ++ exact (free_map _ K q _ _ H1 (Fr q P2) P1).
             ++ exact (Ap' _ _ _ _ q H1 H2 N P1 P2).
        * intros k h k' l q Hk Hl Hr Ho. apply put_cases in Hl as [[_ ->]|[_ Hl]]; [exact (free_ring _ K q _ _ Hk (Fr q Ho) Hr)|].
          exact (RM' _ _ _ _ q Hk Hl Hr Ho).
      + intros i a Ha. apply pool_cases in Ha as [[_ Ha]|[N Ha]]; [discriminate Ha|exact (PE i a N Ha)].
      + intros i j a b q Ha Hb. apply pool_cases in Ha as [[_ Ha]|[_ Ha]]; [discriminate Ha|]. apply pool_cases in Hb as [[_ Hb]|[_ Hb]]; [discriminate Hb|].
        exact (Tp _ _ _ _ q Ha Hb).
      + intros i j a b x Ha Hb. apply pool_cases in Ha as [[_ Ha]|[_ Ha]]; [discriminate Ha|]. apply pool_cases in Hb as [[_ Hb]|[_ Hb]]; [discriminate Hb|].
        exact (Tf _ _ _ _ x Ha Hb).
      + intros i a k l q Ha Hl Ho Qa. cbn in Hl. apply pool_cases in Ha as [[_ Ha]|[N Ha]]; [discriminate Ha|].
        apply put_cases in Hl as [[_ ->]|[_ Hl]]; [exact (free_pend _ _ K q _ _ N Ha (Fr q Ho) Qa)|exact (Tm _ _ _ _ _ Ha Hl Ho Qa)].
      + intros i a k h q Ha Hl Ho Qa. cbn in Hl. apply pool_cases in Ha as [[_ Ha]|[N Ha]]; [discriminate Ha|exact (Tr _ _ _ _ _ Ha Hl Ho Qa)].
    - destruct So as (n & o & Hh & Fit & Sub). set (h0 := new_held inf pg len) in *. clearbody h0.
      pose proof PK as [A' C' R' RR' RM']. cbn [pc_set_w pc_a pc_ring pc_cnt] in *.
      split; cbn [set_pool ts_p ts_pool].
      + split; cbn [pc_a pc_ring pc_cnt]; [exact A'| | | |].
        * intros k Hk. rewrite put_other by lia. apply C'. lia.
        * intros k h Hk. apply put_cases in Hk as [[_ ->]|[_ Hk]]; [|exact (R' k h Hk)]. split; [exact Fit|]. exists n, o, (fun _ => 0). exact Hh.
        * intros k1 k2 h1 h2 q H1 H2 N P1 P2. apply put_cases in H1 as [[-> ->]|[N1 H1]]; apply put_cases in H2 as [[-> ->]|[N2 H2]].
          -- contradiction.
          -- exact (Tr _ _ _ _ _ Hp H2 P2 (Sub q P1)).
          -- exact (Tr _ _ _ _ _ Hp H1 P1 (Sub q P2)).
          -- exact (RR' _ _ _ _ q H1 H2 N P1 P2).
        * intros k h k' l q Hk Hl P1 P2. cbn in Hl. apply put_cases in Hk as [[-> ->]|[N1 Hk]]; [|exact (RM' _ _ _ _ q Hk Hl P1 P2)].
          exact (Tm _ _ _ _ _ Hp Hl P2 (Sub q P1)).
      + intros i a Ha. apply pool_cases in Ha as [[_ Ha]|[N Ha]]; [discriminate Ha|exact (PE i a N Ha)].
      + intros i j a b q Ha Hb. apply pool_cases in Ha as [[_ Ha]|[_ Ha]]; [discriminate Ha|]. apply pool_cases in Hb as [[_ Hb]|[_ Hb]]; [discriminate Hb|].
        exact (Tp _ _ _ _ q Ha Hb).
      + intros i j a b x Ha Hb. apply pool_cases in Ha as [[_ Ha]|[_ Ha]]; [discriminate Ha|]. apply pool_cases in Hb as [[_ Hb]|[_ Hb]]; [discriminate Hb|].
        exact (Tf _ _ _ _ x Ha Hb).
      + intros i a k l q Ha Hl Ho Qa. cbn in Hl. apply pool_cases in Ha as [[_ Ha]|[N Ha]]; [discriminate Ha|exact (Tm _ _ _ _ _ Ha Hl Ho Qa)].
      + intros i a k h q Ha Hl Ho Qa. cbn in Hl. apply pool_cases in Ha as [[_ Ha]|[N Ha]]; [discriminate Ha|].
        apply put_cases in Hl as [[_ ->]|[_ Hl]]; [exact (Tp _ _ _ _ q Ha Hp N Qa (Sub q Ho))|exact (Tr _ _ _ _ _ Ha Hl Ho Qa)].
    - split; cbn [set_pool ts_p ts_pool]; [exact PK| | | | |].
      + intros i a Ha. apply pool_cases in Ha as [[_ Ha]|[N Ha]]; [discriminate Ha|exact (PE i a N Ha)].
      + intros i j a b q Ha Hb. apply pool_cases in Ha as [[_ Ha]|[_ Ha]]; [discriminate Ha|]. apply pool_cases in Hb as [[_ Hb]|[_ Hb]]; [discriminate Hb|].
        exact (Tp _ _ _ _ q Ha Hb).
      + intros i j a b x Ha Hb. apply pool_cases in Ha as [[_ Ha]|[_ Ha]]; [discriminate Ha|]. apply pool_cases in Hb as [[_ Hb]|[_ Hb]]; [discriminate Hb|].
        exact (Tf _ _ _ _ x Ha Hb).
      + intros i a k l q Ha Hl Ho Qa. apply pool_cases in Ha as [[_ Ha]|[N Ha]]; [discriminate Ha|exact (Tm _ _ _ _ _ Ha Hl Ho Qa)].
      + intros i a k h q Ha Hl Ho Qa. apply pool_cases in Ha as [[_ Ha]|[N Ha]]; [discriminate Ha|exact (Tr _ _ _ _ _ Ha Hl Ho Qa)].
  Qed.

  (** ** A call made as one step *)
  Lemma step_fds c a r a' fd : api_ok t a -> call_ok t c -> step t c a = (r, a') -> one_step (PMap c) = true -> c <> CClose fd ->
    w_fd (a_w a') fd = w_fd (a_w a) fd.
  Proof.
    intros A CO E On Nc. destruct (subject c) as [k|] eqn:Sj.
    - destruct (step_kinds t Ht _ _ _ _ A CO E) as [X W' L' C' [D|D]|l Sj' X W' L' C' B' Fr|k0 l l' _ L Wi El L' C'|k0 l -> L L' C' D|oe -> V W' L' C']; try congruence.
      + rewrite (wi_fd _ _ _ _ Wi). reflexivity.
      + destruct D as [Q|(Q & _)]; [rewrite (q_fd _ _ Q)|rewrite (sf_fd _ _ Q)]; reflexivity.
      + discriminate Sj.
    - destruct c as [mut op path|mut op x|mut op|x|k|k|k i|k i b|k md|k off len md|k adv|k off len adv|k|k off len|k|k off len|k|o' pg|oe];
        try discriminate Sj; try discriminate On; cbn [step] in E.
      + destruct (alloc t op (a_w a)) as [x w1] eqn:Ea. destruct CO as [CO Fit].
        pose proof (alloc_spec t Ht _ _ _ _ (ok_wf _ _ A) CO Fit Ea) as M. destruct x as [m|e| | |]; try contradiction M; injection E as <- <-; cbn [a_w add_live set_w].
        * replace (w_fd w1) with (w_fd (a_w a)) by (symmetry; apply M). reflexivity.
        * rewrite (q_fd _ _ (proj2 M)). reflexivity.
        * rewrite (proj2 M). reflexivity.
      + injection E as <- <-. cbn. apply put_other. congruence.
      + injection E as <- <-. reflexivity.
      + injection E as <- <-. cbn [a_w set_w]. rewrite (iv_fd _ _ (others_interfered t oe (a_w a) CO)). reflexivity.
  Qed.

  Lemma call_kept p c pd : pok t p -> pcall_ok t c -> one_step c = true -> pend_ok t (pc_w p) pd ->
    (forall fd, c = PMap (CClose fd) -> pd_fd pd <> Some fd) ->
    (forall k l q, a_live (pc_a p) k = Some l -> own_page t (l_map l) q -> pd_page t pd q -> False) ->
    (forall k h q, pc_ring p k = Some h -> ring_page t h q -> pd_page t pd q -> False) ->
    let p' := snd (pstep t plat c p) in
    keeps t pd (pc_w p) (pc_w p') /\
    (forall k l q, a_live (pc_a p') k = Some l -> own_page t (l_map l) q -> pd_page t pd q -> False) /\
    (forall k h q, pc_ring p' k = Some h -> ring_page t h q -> pd_page t pd q -> False).
  Proof.
    intros K CO On Pe Cl Dm Dr. cbv zeta. pose proof (pk_api _ _ K) as A.
    assert (Ring : forall k h h' n o m w', pc_ring p k = Some h -> same_alloc h h' -> at_home t (pc_w p) h n o m -> only_in o (pc_w p) w' ->
      keeps t pd (pc_w p) w' /\
      (forall k0 h0 q, put (pc_ring p) k (Some h') k0 = Some h0 -> ring_page t h0 q -> pd_page t pd q -> False)).
    { intros k h h' n o m w' Hk SA H [A1 A2 A3 A4 A5 A6 A7 A8]. split; [split|].
      - intros fd _. rewrite A3. reflexivity.
      - intros fd o' Ow E F0 Hh Pg. assert (No : o' <> o).
        { intros ->. pose proof (hm_priv _ _ _ _ _ _ H) as [_ P2 _]. exact (P2 _ _ (hd_own _ _ _ Hh) eq_refl). }
        destruct Hh as [H1 H2 H3 H4]. split.
        + split; rewrite ?A2, ?A3, ?A4; assumption.
        + rewrite A6 by exact No. reflexivity.
        + rewrite A6 by exact No. reflexivity.
        + rewrite A1. eauto.
      - intros q e _ He. exists e. rewrite A1. split; [exact He|apply stays_refl].
      - intros k0 h0 q H0 Hq Hd. apply put_cases in H0 as [[-> ->]|[N0 H0]]; [|exact (Dr _ _ _ H0 Hq Hd)].
        apply (page_same t h h' q SA) in Hq. exact (Dr _ _ _ Hk Hq Hd). }
    destruct c as [c|hint clock|hint clock|k c|k c|k]; try discriminate On; cbn [pstep].
    - destruct (step t c (pc_a p)) as [r a'] eqn:E. cbn [snd pc_w pc_a pc_ring]. destruct CO as [CO Pa].
      assert (Fd : forall fd, pd_fd pd = Some fd -> w_fd (a_w a') fd = w_fd (a_w (pc_a p)) fd).
      { intros fd Hf. apply (step_fds c _ r); auto. intros ->. exact (Cl fd eq_refl Hf). }
      assert (Hid : forall fd o, pd_owns pd = true -> pd_fd pd = Some fd -> 0 <= fd -> hid fd (pc_w p) o ->
        (forall q e, w_vm (pc_w p) q = Some e -> p_obj e = o -> pd_page t pd q) -> hsafe' fd o (pc_w p) (a_w a')).
      { intros fd o Ow Hf F0 Hh Pg. replace a' with (snd (step t c (pc_a p))) by (rewrite E; reflexivity).
        apply (hsafe_step t fd o F0 c (pc_a p) Pa); [|exact Hh]. destruct c; auto; try discriminate On.
        - intros ->. exact (Cl _ eq_refl Hf).
        - intros l Hl Hi e He Ho. destruct (byte_page t Ht _ _ _ _ _ _ (ok_live _ _ A _ _ Hl) i Hi) as (Ep & Ow' & _). rewrite Ep in He.
          exact (Dm _ _ _ Hl Ow' (Pg _ _ He Ho)). }
      destruct (step_kinds t Ht _ _ _ _ A CO E) as [X W' L' C'|l Sj X W' L' C' B' Fr|k l l' Sj L Wi El L' C'|k l -> L L' C' D|oe _ V W' L' C'].
      + split; [split; [exact Fd|exact Hid|]|].
        * intros q e _. apply (extends_vm _ _ X).
        * rewrite L'. split; assumption.
      + split; [split; [exact Fd|exact Hid|]|].
        * intros q e _. apply (extends_vm _ _ X).
        * split; [|exact Dr]. intros k l0 q Hl Ho Hd. rewrite L' in Hl. apply put_cases in Hl as [[_ ->]|[_ Hl]]; [|exact (Dm _ _ _ Hl Ho Hd)].
          destruct (pend_mapped t Ht _ _ _ Pe Hd) as (e & He). unfold pc_w in He. rewrite (Fr q Ho) in He. discriminate He.
      + split; [split; [exact Fd|exact Hid|]|].
        * intros q e Hd He. exists e. split; [|apply stays_refl]. unfold pc_w; cbn [pc_a]. rewrite (wi_out _ _ _ _ Wi); [exact He|]. intros Ho. exact (Dm _ _ _ L Ho Hd).
        * split; [|exact Dr]. intros k0 l0 q Hl Ho Hd. rewrite L' in Hl. apply put_cases in Hl as [[_ ->]|[_ Hl]]; [|exact (Dm _ _ _ Hl Ho Hd)].
          apply (Dm _ _ q L); [|exact Hd]. destruct El as [->|[->| ->]]; exact Ho.
      + split; [split; [exact Fd|exact Hid|]|].
        * intros q e Hd He. exists e. split; [|apply stays_refl]. unfold pc_w; cbn [pc_a]. destruct D as [Q|(_ & _ & D2)]; [rewrite (q_vm _ _ Q); exact He|].
          rewrite D2; [exact He|]. intros Ho. exact (Dm _ _ _ L Ho Hd).
        * split; [|exact Dr]. intros k0 l0 q Hl Ho Hd. rewrite L' in Hl. unfold put in Hl. destruct (k0 =? k); [discriminate Hl|]. exact (Dm _ _ _ Hl Ho Hd).
      + split; [split; [exact Fd|exact Hid|]|].
        * intros q e _ He. exact (interfered_vm _ _ _ _ V He).
        * rewrite L'. split; assumption.
    - assert (Same : keeps t pd (pc_w p) (pc_w p)).
      { split; auto; [intros fd o _ _ _ Hh _; apply (hsafe_refl fd o _ Hh)|]. intros q e _ He. exists e. split; [exact He|apply stays_refl]. }
      destruct (pc_ring p k) as [[s|s]|] eqn:Hk; try exact (conj Same (conj Dm Dr)).
      destruct (kring_step t world (load t) (store t) c s (pc_w p)) as [r [s' w']] eqn:E. cbn [snd pc_put pc_w pc_a pc_ring set_w a_w a_live].
      destruct (pk_ring _ _ K _ _ Hk) as (F & n & o & m & H). destruct (ring_call t Ht _ _ _ _ _ _ _ _ _ H F CO E) as (F' & SA & O & m' & H').
      destruct (Ring _ _ _ _ _ _ _ Hk SA H O) as [R1 R2]. split; [exact R1|]. split; [exact Dm|exact R2].
    - assert (Same : keeps t pd (pc_w p) (pc_w p)).
      { split; auto; [intros fd o _ _ _ Hh _; apply (hsafe_refl fd o _ Hh)|]. intros q e _ He. exists e. split; [exact He|apply stays_refl]. }
      destruct (pc_ring p k) as [[s|s]|] eqn:Hk; try exact (conj Same (conj Dm Dr)).
      destruct (kiring_step t world (load t) (store t) c s (pc_w p)) as [r [s' w']] eqn:E. cbn [snd pc_put pc_w pc_a pc_ring set_w a_w a_live].
      destruct (pk_ring _ _ K _ _ Hk) as (F & n & o & m & H). destruct (inf_call t Ht _ _ _ _ _ _ _ _ _ H F CO E) as (F' & SA & O & m' & H').
      destruct (Ring _ _ _ _ _ _ _ Hk SA H O) as [R1 R2]. split; [exact R1|]. split; [exact Dm|exact R2].
    - destruct (pc_ring p k) as [h|] eqn:Hk.
      2:{ split; [|split; [exact Dm|exact Dr]]. split; auto; [intros fd o _ _ _ Hh _; apply (hsafe_refl fd o _ Hh)|].
          intros q e _ He. exists e. split; [exact He|apply stays_refl]. }
      destruct (ring_drop t (h_alloc h) (pc_w p)) as [r w'] eqn:E. cbn [snd pc_put pc_w pc_a pc_ring set_w a_w a_live].
      destruct (pk_ring _ _ K _ _ Hk) as (F & n & o & m & H). destruct (home_drop t Ht _ _ _ _ _ _ _ H E) as (_ & E1 & E2 & E3 & E4 & D).
      assert (V : forall q, ~ ring_page t h q -> w_vm w' q = w_vm (pc_w p) q).
      { intros q Hq. destruct D as [(_ & _ & D)|[_ D]]; [exact (D q Hq)|rewrite D; reflexivity]. }
      assert (V' : forall q e, w_vm w' q = Some e -> w_vm (pc_w p) q = Some e).
      { intros q e. destruct D as [(_ & D0 & D)|[_ D]]; [|rewrite D; auto]. intros He.
        destruct (w_vm (pc_w p) q) as [e0|] eqn:E0.
        - destruct (Z_le_gt_dec (ra_ptr (h_alloc h)) (P * q)) as [L1|L1]; [destruct (Z_lt_ge_dec (P * q) (ra_ptr (h_alloc h) + 2 * ra_len (h_alloc h))) as [L2|L2]|].
          + rewrite D0 in He; [discriminate He|]. split; assumption.
          + rewrite D in He; [congruence|]. intros [_ C]. lia.
          + rewrite D in He; [congruence|]. intros [C _]. lia.
        - rewrite D in He; [congruence|]. intros Hq. destruct (home_entry t Ht _ _ _ _ _ _ H Hq) as (e1 & He1 & _). congruence. }
      split; [split|].
      + intros fd _. rewrite E3. reflexivity.
      + intros fd o' _ _ _ [H1 H2 H3 H4] _. split.
        * split; rewrite ?E2, ?E3, ?E4; assumption.
        * rewrite E1. reflexivity.
        * rewrite E1. reflexivity.
        * intros q e He Ho. exists e. split; [exact (V' q e He)|exact Ho].
      + intros q e Hd He. exists e. split; [|apply stays_refl]. rewrite V; [exact He|]. intros Hq. exact (Dr _ _ _ Hk Hq Hd).
      + split; [exact Dm|]. intros k0 h0 q H0 Hq Hd. unfold put in H0. destruct (k0 =? k); [discriminate H0|]. exact (Dr _ _ _ H0 Hq Hd).
  Qed.

  Lemma round_pages hint len : is_usize t hint -> size_round (E:=error) t (size_alloc t) hint = Ret len -> is_usize t len /\ len mod P = 0.
  Proof.
    intros Hh E. pose proof (round_cases t Hg hint Hh) as Rc. rewrite E in Rc. destruct Rc as [Hl Rc].
    split; [exact Hl|]. destruct (Z.eq_dec len 0) as [->|N]; [apply Z.mod_0_l; lia|].
    destruct (Rc ltac:(destruct Hl; lia)) as (D & _). rewrite (proj2 Ht) in D. apply Z.mod_divide; [lia|exact D].
  Qed.

  Lemma begin_ok s tid pd : tok s -> ts_pool s tid = None -> pend_ok t (pc_w (ts_p s)) pd -> (forall q, ~ pd_page t pd q) ->
    (forall fd, pd_fd pd = Some fd -> pd_owns pd = false /\ forall j b, ts_pool s j = Some b -> pd_owns b = true -> pd_fd b <> Some fd) ->
    tok (set_pool s (ts_p s) tid (Some pd)).
  Proof.
    intros [Tk Te Tp Tf Tm Tr] N0 Pe Np Fd. split; cbn [set_pool ts_p ts_pool]; [exact Tk| | | | |].
    - intros i a Ha. apply pool_cases in Ha as [[-> [= <-]]|[N Ha]]; [exact Pe|exact (Te i a Ha)].
    - intros i j a b q Ha Hb N Qa Qb. apply pool_cases in Ha as [[-> [= <-]]|[Na Ha]]; [destruct (Np q Qa)|].
      apply pool_cases in Hb as [[-> [= <-]]|[Nb Hb]]; [destruct (Np q Qb)|exact (Tp _ _ _ _ _ Ha Hb N Qa Qb)].
    - intros i j a b fd Ha Hb N Ow Fa Fb. apply pool_cases in Ha as [[-> [= <-]]|[Na Ha]]; apply pool_cases in Hb as [[-> [= <-]]|[Nb Hb]]; try congruence.
      + destruct (Fd fd Fa) as [F1 _]. congruence.
      + destruct (Fd fd Fb) as [_ F2]. exact (F2 _ _ Ha Ow Fa).
      + exact (Tf _ _ _ _ _ Ha Hb N Ow Fa Fb).
    - intros i a k l q Ha Hl Ho Qa. apply pool_cases in Ha as [[-> [= <-]]|[N Ha]]; [exact (Np q Qa)|exact (Tm _ _ _ _ _ Ha Hl Ho Qa)].
    - intros i a k h q Ha Hl Ho Qa. apply pool_cases in Ha as [[-> [= <-]]|[N Ha]]; [exact (Np q Qa)|exact (Tr _ _ _ _ _ Ha Hl Ho Qa)].
  Qed.

  Theorem tstep_ok e s : tok s -> ev_ok t s e -> tok (snd (tstep t plat e s)).
  Proof.
    intros K EO. destruct e as [c|tid mut o path|tid mut o fd|tid inf hint clock|tid]; cbn [tstep ev_ok] in *.
    - destruct EO as (CO & On & Cl). pose proof (pstep_ok t plat Ht c _ (tk_proc _ K) CO) as PK.
      assert (Kp : forall i a, ts_pool s i = Some a -> _) by (intros i a Ha;
        exact (call_kept (ts_p s) c a (tk_proc _ K) CO On (tk_pend _ K i a Ha) (fun fd E => Cl fd i a E Ha)
                 (fun k l q => tk_maps _ K i a k l q Ha) (fun k h q => tk_rings _ K i a k h q Ha))).
      cbv zeta in Kp. destruct (pstep t plat c (ts_p s)) as [x p'] eqn:E. cbn [snd] in *. pose proof K as [_ Te Tp Tf _ _].
      split; cbn [ts_p ts_pool]; try assumption.
      + intros i a Ha. exact (pend_kept t Ht _ _ _ (Te i a Ha) (proj1 (Kp i a Ha))).
      + intros i a k l q Ha. exact (proj1 (proj2 (Kp i a Ha)) k l q).
      + intros i a k h q Ha. exact (proj2 (proj2 (Kp i a Ha)) k h q).
    - unfold begin. destruct (ts_pool s tid) eqn:N0; [exact K|]. apply begin_ok; [exact K|exact N0|exact EO|intros q []|discriminate].
    - unfold begin. destruct (ts_pool s tid) eqn:N0; [exact K|]. destruct EO as (Oo & Op & Ex). apply begin_ok; [exact K|exact N0| |intros q []|].
      + split; [exact Oo|]. destruct (w_fd (pc_w (ts_p s)) fd) as [f|] eqn:Ef; [exists f; exact Ef|contradiction].
      + intros x [= <-]. split; [reflexivity|]. intros j b. apply Ex.
    - unfold begin. destruct (ts_pool s tid) eqn:N0; [exact K|]. destruct (size_round (E:=error) t (size_alloc t) hint) as [len|e| | |] eqn:Er; try exact K.
      apply begin_ok; [exact K|exact N0| |intros q []|discriminate]. destruct (round_pages _ _ EO Er) as [U D]. split; [exact U|]. split; [exact D|exact template_good].
    - destruct (ts_pool s tid) as [pd|] eqn:Hp; [exact (go_ok s tid pd K Hp)|exact K].
  Qed.

  Lemma idle_ok w : wf w -> tok (idle w).
  Proof. intros W. split; cbn; try discriminate. apply fresh_ok, W. Qed.
  Theorem treached_ok s : treached t plat s -> tok s.
  Proof. induction 1 as [w W|s e R IH EO]; [exact (idle_ok w W)|exact (tstep_ok e s IH EO)]. Qed.
End Inv.
