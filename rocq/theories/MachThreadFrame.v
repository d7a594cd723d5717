(** What calls on maps and rings, and maps being made, cannot do to pages that
    belong to neither: the memory of a ring that is being made on macOS. *)
From Coq Require Import Lia.
From Verif Require Import Base Spec ErrorModel RingSpec RingModel SizeModel SizeProofs OsModel OthersModel MapModel MapSpec OsProofs MapProofs MapCreate MapOps
  ApiModel ApiSpec OthersProofs ApiProofs RingMapModel RingMapSpec MirrorProofs RingMapClaims RingProofs MemRingModel MemRingProofs
  ProcModel ProcSpec ProcFrame ProcProofs ThreadModel ThreadSpec ThreadFrame ThreadProofs ThreadInv
  MachModel MachSpec MachProofs MachClaims MachProcModel MachProcSpec MachProcProofs MachThreadModel MachThreadSpec.

Section Frame.
  Variable t : target.
  Hypothesis Ht : posix_target t.
  Notation P := (t_page t).
  Let Hg : good_target t := proj1 Ht.
  Let HP : 0 < P.
  Proof. exact (pow2_pos _ (proj1 (proj2 Hg))). Qed.

  (** The pages [Q] and the private memory seen there only, between two states. *)
  Record qkeeps (Q : Z -> Prop) (w w' : world) : Prop := {
    qk_vm : forall q e, Q q -> w_vm w q = Some e -> exists e', w_vm w' q = Some e' /\ stays e e';
    qk_obj : forall o, priv w o -> (forall q e, w_vm w q = Some e -> p_obj e = o -> Q q) -> safe' o w w'
  }.
  Lemma qkeeps_refl Q w : qkeeps Q w w.
  Proof.
    split; [intros q e _ He; exists e; split; [exact He|apply stays_refl]|].
    intros o Pv _. exact (safe_refl o w Pv).
  Qed.
  Definition apart (Q : Z -> Prop) (p : proc) : Prop :=
    (forall k l q, a_live (pc_a p) k = Some l -> own_page t (l_map l) q -> Q q -> False) /\
    (forall k h q, pc_ring p k = Some h -> ring_page t h q -> Q q -> False).

  Lemma call_keeps p c (Q : Z -> Prop) : pok t p -> pcall_ok t c -> one_step c = true ->
    (forall q, Q q -> exists e, w_vm (pc_w p) q = Some e) -> apart Q p ->
    qkeeps Q (pc_w p) (pc_w (snd (pstep t Anonymous c p))) /\ apart Q (snd (pstep t Anonymous c p)).
  Proof.
    intros K CO On Mp [Dm Dr]. pose proof (pk_api _ _ K) as A.
    assert (Ring : forall k h h' n o m w', pc_ring p k = Some h -> same_alloc h h' -> at_home t (pc_w p) h n o m -> only_in o (pc_w p) w' ->
      qkeeps Q (pc_w p) w' /\
      (forall k0 h0 q, put (pc_ring p) k (Some h') k0 = Some h0 -> ring_page t h0 q -> Q q -> False)).
    { intros k h h' n o m w' Hk SA H O. pose proof O as [A1 A2 A3 A4 A5 A6 A7 A8]. split; [split|].
      - intros q e _ He. exists e. rewrite A1. split; [exact He|apply stays_refl].
      - intros o' Pv Pg. assert (No : o' <> o).
        { intros ->. destruct (home_page0 t Ht _ _ _ _ _ H) as (q & Hq). destruct (home_entry t Ht _ _ _ _ _ _ H Hq) as (e & He & Ho & _).
          exact (Dr _ _ _ Hk Hq (Pg _ _ He Ho)). }
        exact (only_in_safe _ _ _ _ O No Pv).
      - intros k0 h0 q H0 Hq Hd. apply put_cases in H0 as [[-> ->]|[N0 H0]]; [|exact (Dr _ _ _ H0 Hq Hd)].
        apply (page_same t h h' q SA) in Hq. exact (Dr _ _ _ Hk Hq Hd). }
    destruct c as [c|hint clock|hint clock|k c|k c|k]; try discriminate On; cbn [pstep].
    - destruct (step t c (pc_a p)) as [r a'] eqn:E. cbn [snd pc_w pc_a pc_ring]. destruct CO as [CO Pa].
      assert (Hid : forall o, priv (pc_w p) o -> (forall q e, w_vm (pc_w p) q = Some e -> p_obj e = o -> Q q) -> safe' o (pc_w p) (a_w a')).
      { intros o Pv Pg. replace a' with (snd (step t c (pc_a p))) by (rewrite E; reflexivity).
        apply (safe_step t o c (pc_a p)); [destruct c; auto| |exact Pv]. destruct c; auto.
        intros l Hl Hi e He Ho. destruct (byte_page t Ht _ _ _ _ _ _ (ok_live _ _ A _ _ Hl) i Hi) as (Ep & Ow' & _). rewrite Ep in He.
        exact (Dm _ _ _ Hl Ow' (Pg _ _ He Ho)). }
      destruct (step_kinds t Ht _ _ _ _ A CO E) as [X W' L' C'|l Sj X W' L' C' B' Fr|k l l' Sj L Wi El L' C'|k l -> L L' C' D|oe _ V W' L' C'];
        (split; [split; [|exact Hid]|split; [|exact Dr]]); unfold pc_w; cbn [pc_a].
      + intros q e _. apply (extends_vm _ _ X).
      + rewrite L'. exact Dm.
      + intros q e _. apply (extends_vm _ _ X).
      + intros k l0 q Hl Ho Hd. rewrite L' in Hl. apply put_cases in Hl as [[_ ->]|[_ Hl]]; [|exact (Dm _ _ _ Hl Ho Hd)].
        destruct (Mp q Hd) as (e & He). unfold pc_w in He. rewrite (Fr q Ho) in He. discriminate He.
      + intros q e Hd He. exists e. split; [|apply stays_refl]. rewrite (wi_out _ _ _ _ Wi); [exact He|]. intros Ho. exact (Dm _ _ _ L Ho Hd).
      + intros k0 l0 q Hl Ho Hd. rewrite L' in Hl. apply put_cases in Hl as [[_ ->]|[_ Hl]]; [|exact (Dm _ _ _ Hl Ho Hd)].
        apply (Dm _ _ q L); [|exact Hd]. destruct El as [->|[->| ->]]; exact Ho.
      + intros q e Hd He. exists e. split; [|apply stays_refl]. destruct D as [Qu|(_ & _ & D2)]; [rewrite (q_vm _ _ Qu); exact He|].
        rewrite D2; [exact He|]. intros Ho. exact (Dm _ _ _ L Ho Hd).
      + intros k0 l0 q Hl Ho Hd. rewrite L' in Hl. unfold put in Hl. destruct (k0 =? k); [discriminate Hl|]. exact (Dm _ _ _ Hl Ho Hd).
      + intros q e _ He. exact (interfered_vm _ _ _ _ V He).
      + rewrite L'. exact Dm.
    - destruct (pc_ring p k) as [[s|s]|] eqn:Hk; try exact (conj (qkeeps_refl Q _) (conj Dm Dr)).
      destruct (kring_step t world (load t) (store t) c s (pc_w p)) as [r [s' w']] eqn:E. cbn [snd pc_put pc_w pc_a pc_ring set_w a_w a_live].
      destruct (pk_ring _ _ K _ _ Hk) as (F & n & o & m & H). destruct (ring_call t Ht _ _ _ _ _ _ _ _ _ H F CO E) as (F' & SA & O & m' & H').
      destruct (Ring _ _ _ _ _ _ _ Hk SA H O) as [R1 R2]. split; [exact R1|]. split; [exact Dm|exact R2].
    - destruct (pc_ring p k) as [[s|s]|] eqn:Hk; try exact (conj (qkeeps_refl Q _) (conj Dm Dr)).
      destruct (kiring_step t world (load t) (store t) c s (pc_w p)) as [r [s' w']] eqn:E. cbn [snd pc_put pc_w pc_a pc_ring set_w a_w a_live].
      destruct (pk_ring _ _ K _ _ Hk) as (F & n & o & m & H). destruct (inf_call t Ht _ _ _ _ _ _ _ _ _ H F CO E) as (F' & SA & O & m' & H').
      destruct (Ring _ _ _ _ _ _ _ Hk SA H O) as [R1 R2]. split; [exact R1|]. split; [exact Dm|exact R2].
    - destruct (pc_ring p k) as [h|] eqn:Hk; [|exact (conj (qkeeps_refl Q _) (conj Dm Dr))].
      destruct (ring_drop t (h_alloc h) (pc_w p)) as [r w'] eqn:E. cbn [snd pc_put pc_w pc_a pc_ring set_w a_w a_live].
      destruct (pk_ring _ _ K _ _ Hk) as (F & n & o & m & H). destruct (home_drop t Ht _ _ _ _ _ _ _ H E) as (_ & E1 & E2 & E3 & E4 & D).
      assert (V : forall q, ~ ring_page t h q -> w_vm w' q = w_vm (pc_w p) q).
      { intros q Hq. destruct D as [(_ & _ & D)|[_ D]]; [exact (D q Hq)|rewrite D; reflexivity]. }
      assert (V' : forall q e, w_vm w' q = Some e -> w_vm (pc_w p) q = Some e).
      { intros q e. assert (Dec : ring_page t h q \/ ~ ring_page t h q) by (unfold ring_page, ring_addr; lia).
        destruct Dec as [Y|N]; [|rewrite (V q N); auto]. destruct D as [(_ & D0 & _)|[_ D]]; [rewrite (D0 q Y); discriminate|rewrite D; auto]. }
      split; [split|].
      + intros q e Hd He. exists e. split; [|apply stays_refl]. rewrite V; [exact He|]. intros Hq. exact (Dr _ _ _ Hk Hq Hd).
      + intros o' Pv _. exact (less_safe (pc_w p) w' o' E1 E2 E3 E4 V' Pv).
      + split; [exact Dm|]. intros k0 h0 q H0 Hq Hd. cbn in H0. unfold put in H0. destruct (k0 =? k); [discriminate H0|]. exact (Dr _ _ _ H0 Hq Hd).
  Qed.

  (** Only maps are made by the POSIX code. *)
  Definition map_stage (pd : pending) : bool :=
    match pd with MOpen _ _ _ | MStat _ _ _ _ | MCut _ _ _ _ _ | MSize _ _ _ _ _ | MMap _ _ _ _ _ | MClose _ _ => true | _ => false end.
  Definition maps_only (s : tsys) : Prop := forall tid pd, ts_pool s tid = Some pd -> map_stage pd = true.
  Lemma map_stage_page pd q : map_stage pd = true -> ~ pd_page t pd q.
  Proof. destruct pd; try discriminate; intros _ H; exact H. Qed.
  Lemma map_stage_adv pd w oc w' : map_stage pd = true -> advance t Anonymous pd w = (oc, w') ->
    match oc with More pd' => map_stage pd' = true | MadeRing _ _ _ => False | _ => True end.
  Proof.
    intros M E. assert (MF : forall own fd (A : Type) (r : out error A), match map_fail own fd r with More pd' => map_stage pd' = true | MadeRing _ _ _ => False | _ => True end)
      by (intros [] fd A r; [reflexivity|exact Logic.I]).
    destruct pd; try discriminate M; cbn [advance] in E.
    - destruct (io_call (file_open t (op_open o) path) w) as [[fd|e| | |] w1]; injection E as <- <-; try exact Logic.I. reflexivity.
    - destruct ((do* l <- io_call (file_len fd); sret (as_usize t l)) w) as [[x|e| | |] w1]; apply pair_eq in E as [<- _]; try apply MF; reflexivity.
    - destruct ((if op_truncate o && (0 <? flen) then resize_to t fd 0 else sret flen) w) as [[x|e| | |] w1]; apply pair_eq in E as [<- _]; try apply MF; reflexivity.
    - destruct (size_part t o fd flen w) as [[x|e| | |] w1]; apply pair_eq in E as [<- _]; try apply MF; reflexivity.
    - destruct (map_part t o fd flen w) as [[[x|]|e| | |] w1]; apply pair_eq in E as [<- _]; try apply MF; exact Logic.I.
    - apply pair_eq in E as [<- _]. exact Logic.I.
  Qed.

  Definition not_ring (e : event) : Prop := forall tid inf hint clock, e <> ERing tid inf hint clock.
  Lemma posix_only e s : maps_only s -> not_ring e -> maps_only (snd (tstep t Anonymous e s)).
  Proof.
    intros M N. destruct e as [c|tid mut o path|tid mut o fd|tid inf hint clock|tid]; cbn [tstep].
    - destruct (pstep t Anonymous c (ts_p s)). exact M.
    - unfold begin. destruct (ts_pool s tid); [exact M|]. intros i pd Hi. cbn in Hi. apply pool_cases in Hi as [[_ [= <-]]|[_ Hi]]; [reflexivity|exact (M _ _ Hi)].
    - unfold begin. destruct (ts_pool s tid); [exact M|]. intros i pd Hi. cbn in Hi. apply pool_cases in Hi as [[_ [= <-]]|[_ Hi]]; [reflexivity|exact (M _ _ Hi)].
    - destruct (N _ _ _ _ eq_refl).
    - destruct (ts_pool s tid) as [pd|] eqn:Hp; [|exact M]. unfold go. destruct (advance t Anonymous pd (pc_w (ts_p s))) as [out w'] eqn:E.
      pose proof (map_stage_adv _ _ _ _ (M _ _ Hp) E) as A. destruct out as [pd'|mut own o fd m|inf pg len|r]; intros i pd0 Hi; cbn in Hi;
        apply pool_cases in Hi as [[_ Hi]|[_ Hi]]; try (exact (M _ _ Hi)); try discriminate Hi. injection Hi as <-. exact A.
  Qed.

  Lemma posix_keeps e s (Q : Z -> Prop) : tok t s -> maps_only s -> ev_ok t s e -> not_ring e ->
    (forall q, Q q -> exists x, w_vm (pc_w (ts_p s)) q = Some x) -> apart Q (ts_p s) ->
    qkeeps Q (pc_w (ts_p s)) (pc_w (ts_p (snd (tstep t Anonymous e s)))) /\ apart Q (ts_p (snd (tstep t Anonymous e s))).
  Proof.
    intros K M EO N Mp Ap. destruct e as [c|tid mut o path|tid mut o fd|tid inf hint clock|tid]; cbn [tstep ev_ok] in *.
    - destruct EO as (CO & On & _). pose proof (call_keeps (ts_p s) c Q (tk_proc _ _ K) CO On Mp Ap) as X.
      destruct (pstep t Anonymous c (ts_p s)) as [x p']. exact X.
    - unfold begin. destruct (ts_pool s tid); exact (conj (qkeeps_refl Q _) Ap).
    - unfold begin. destruct (ts_pool s tid); exact (conj (qkeeps_refl Q _) Ap).
    - destruct (N _ _ _ _ eq_refl).
    - destruct (ts_pool s tid) as [pd|] eqn:Hp; [|exact (conj (qkeeps_refl Q _) Ap)]. unfold go.
      destruct (advance t Anonymous pd (pc_w (ts_p s))) as [out w'] eqn:E.
      pose proof (adv_staged t Anonymous Ht _ _ _ _ (ok_wf _ _ (pk_api _ _ (tk_proc _ _ K))) (tk_pend _ _ K _ _ Hp) E) as St.
      pose proof (map_stage_adv _ _ _ _ (M _ _ Hp) E) as A. pose proof (map_stage_page pd) as Np.
      assert (QK : qkeeps Q (pc_w (ts_p s)) w').
      { split; [|intros o Pv _; exact (st_safe _ _ _ _ _ St o Pv)]. intros q e _ He.
        exact (st_vm _ _ _ _ _ St q e (Np q (M _ _ Hp)) He). }
      destruct out as [pd'|mut own o fd m|inf pg len|r]; cbn; try contradiction A; (split; [exact QK|]); try exact Ap.
      destruct Ap as [Dm Dr]. split; [|exact Dr]. intros k l q Hl Ho Hq. cbn in Hl. apply put_cases in Hl as [[_ ->]|[_ Hl]]; [|exact (Dm _ _ _ Hl Ho Hq)].
      destruct (st_out _ _ _ _ _ St) as (_ & Fr). destruct (Mp q Hq) as (x & Hx). cbn in Ho. unfold pc_w in *. rewrite (Fr q Ho) in Hx. discriminate Hx.
  Qed.

  (** ** Dropping a ring: munmap and vm_deallocate do the same here *)
  Lemma drop_same w ports h n o m : at_home t w h n o m ->
    mach_ring_drop t (h_alloc h) {| mc_w := w; mc_ports := ports |} =
    (fst (ring_drop t (h_alloc h) w), {| mc_w := snd (ring_drop t (h_alloc h) w); mc_ports := ports |}).
  Proof.
    intros H. pose proof H as [L R _ Lo Hi]. pose proof (rg_n _ _ _ _ _ _ R) as Hn. pose proof (rg_align _ _ _ _ _ _ R) as Ha.
    unfold mach_ring_drop, mach_unmap_ring, ring_drop, ignore, unmap_ring, mbind, sbind, mout, sout, umul, wrap. rewrite L.
    assert (B : (0 <=? 2 * (P * n)) && (2 * (P * n) <? 2 ^ t_bits t) = true) by (rewrite L in Hi; apply andb_true_iff; split; [apply Z.leb_le|apply Z.ltb_lt]; nia).
    rewrite B. unfold kern_call, on_world, vm_deallocate, os_unmap, os_call, sys_munmap, ask. cbn [mc_w mc_ports].
    destruct (w_orc w) as [|[e|a] q]; try reflexivity.
    assert (B1 : 2 * (P * n) =? 0 = false) by (apply Z.eqb_neq; nia). assert (B2 : 2 * (P * n) <=? 0 = false) by (apply Z.leb_gt; nia).
    rewrite B1, B2, Ha. reflexivity.
  Qed.
  Lemma mstep_posix c p ports : pok t p -> one_step c = true ->
    mstep t c {| mp_p := p; mp_ports := ports |} = (fst (pstep t Anonymous c p), {| mp_p := snd (pstep t Anonymous c p); mp_ports := ports |}).
  Proof.
    intros K On. destruct c as [c|hint clock|hint clock|k c|k c|k]; try discriminate On; try (rewrite same_step by exact Logic.I; reflexivity).
    cbn [mstep pstep mp_p]. destruct (pc_ring p k) as [h|] eqn:Hk; [|reflexivity]. destruct (pk_ring _ _ K _ _ Hk) as (_ & n & o & m & H).
    unfold mp_mach. cbn [mp_p mp_ports]. rewrite (drop_same _ ports _ _ _ _ H). destruct (ring_drop t (h_alloc h) (pc_w p)) as [r w']. reflexivity.
  Qed.
End Frame.
