(** Lemmas behind the properties of calls in progress: what a call that was
    interrupted has made in the end. *)
From Coq Require Import Lia.
From Verif Require Import Base Spec ErrorModel RingSpec RingModel SizeModel SizeProofs SeqProofs OsModel OthersModel MapModel MapSpec OsProofs MapProofs MapCreate MapOps
  ApiModel ApiSpec OthersProofs ApiProofs RingMapModel RingMapSpec MirrorProofs RingMapClaims RingProofs IRingProofs RingWeak MemRingModel MemRingProofs
  ProcModel ProcSpec ProcFrame ProcProofs ProcClaims ThreadModel ThreadSpec ThreadFrame ThreadProofs ThreadInv ThreadClaims2.

Section Claims.
  Variable t : target.
  Variable plat : platform.
  Hypothesis Ht : posix_target t.
  Notation P := (t_page t).
  Let Hg : good_target t := proj1 Ht.
  Let HP : 0 < P.
  Proof. exact (pow2_pos _ (proj1 (proj2 Hg))). Qed.
  Let HB : 32 <= t_bits t <= 64.
  Proof. destruct Hg as [[E|E] _]; lia. Qed.

  Lemma between_ring h : forall s s' k r, tok t s -> tpath t plat s h s' ->
    Forall (fun e => ~ acts_for e (HoldRing k)) h -> pc_ring (ts_p s) k = Some r ->
    pc_ring (ts_p s') k = Some r /\ forall a, ring_addr r a -> load (E:=error) t (pc_w (ts_p s')) a = load t (pc_w (ts_p s)) a.
  Proof.
    induction h as [|e h IH]; intros s s' k r K H F Hk; [inversion H; subst; auto|].
    apply path_cons in H as [EO H]. apply Forall_cons_iff in F as [N F]. destruct (pk_ring _ _ (tk_proc _ _ K) _ _ Hk) as (_ & n & o & m & Hm).
    destruct (event_ring t plat Ht e s k r n o m K EO Hk Hm) as [Hk1 H1].
    { intros c ->. left. intros E. apply N. destruct c; try discriminate E; exact E. }
    destruct (IH _ _ _ _ (tstep_ok t plat Ht e s K EO) H F Hk1) as [E1 E2]. split; [exact E1|]. intros a Ha. rewrite (E2 a Ha).
    pose proof (hm_len _ _ _ _ _ _ Hm) as L. unfold ring_addr in Ha. rewrite L in Ha.
    replace a with (ra_ptr (h_alloc r) + (a - ra_ptr (h_alloc r))) by lia.
    rewrite (ring_load t Hg _ _ _ _ _ (a - ra_ptr (h_alloc r)) (hm_ring _ _ _ _ _ _ Hm) ltac:(lia)).
    rewrite (ring_load t Hg _ _ _ _ _ (a - ra_ptr (h_alloc r)) (hm_ring _ _ _ _ _ _ H1) ltac:(lia)). reflexivity.
  Qed.

  (** ** Following one call *)
  Definition follows (Q : pending -> world -> Prop) (tid : Z) (s : tsys) : Prop :=
    forall pd, ts_pool s tid = Some pd -> Q pd (pc_w (ts_p s)).
  Lemma follow (Q : pending -> world -> Prop) tid :
    (forall pd w w', Q pd w -> keeps t pd w w' -> Q pd w') ->
    (forall pd pd' w w', Q pd w -> wf w -> pend_ok t w pd -> advance t plat pd w = (More pd', w') -> Q pd' w') ->
    forall h s s', tok t s -> tpath t plat s h s' -> Forall (fun e => starts e <> Some tid) h -> follows Q tid s -> follows Q tid s'.
  Proof.
    intros QK QA. induction h as [|e h IH]; intros s s' K H F S; [inversion H; subst; exact S|].
    apply path_cons in H as [EO H]. apply Forall_cons_iff in F as [N F].
    refine (IH _ _ (tstep_ok t plat Ht e s K EO) H F _). clear IH H F. intros pd.
    destruct e as [c|i mut o path|i mut o fd|i inf hint clock|i]; cbn [tstep starts] in *.
    - destruct EO as (CO & On & Cl). destruct (pstep t plat c (ts_p s)) as [x p'] eqn:E. cbn [snd ts_p ts_pool]. intros Hp.
      apply (QK pd (pc_w (ts_p s))); [exact (S pd Hp)|].
      pose proof (call_kept t plat Ht (ts_p s) c pd (tk_proc _ _ K) CO On (tk_pend _ _ K _ _ Hp) (fun fd E => Cl fd tid pd E Hp)
        (fun k l q => tk_maps _ _ K tid pd k l q Hp) (fun k h q => tk_rings _ _ K tid pd k h q Hp)) as [Kp _].
      rewrite E in Kp. exact Kp.
    - unfold begin. destruct (ts_pool s i); [exact (S pd)|]. cbn. rewrite put_other by congruence. exact (S pd).
    - unfold begin. destruct (ts_pool s i); [exact (S pd)|]. cbn. rewrite put_other by congruence. exact (S pd).
    - unfold begin. destruct (ts_pool s i); [exact (S pd)|]. destruct (size_round (E:=error) t (size_alloc t) hint); try exact (S pd).
      cbn. rewrite put_other by congruence. exact (S pd).
    - destruct (ts_pool s i) as [pi|] eqn:Hi; [|exact (S pd)]. unfold go. destruct (advance t plat pi (pc_w (ts_p s))) as [out w'] eqn:E.
      pose proof (ok_wf _ _ (pk_api _ _ (tk_proc _ _ K))) as W.
      pose proof (adv_staged t plat Ht _ _ _ _ W (tk_pend _ _ K _ _ Hi) E) as St.
      destruct (Z.eq_dec tid i) as [<-|Ni].
      + destruct out as [pd'|mut own o fd m|inf pg len|r]; cbn; rewrite put_same; intros [= <-].
        exact (QA _ _ _ _ (S _ Hi) W (tk_pend _ _ K _ _ Hi) E).
      + assert (X : ts_pool s tid = Some pd -> Q pd w').
        { intros Hp. exact (QK _ _ _ (S pd Hp) (stage_keeps t Ht _ _ _ _ _ K Hi St _ _ Ni Hp)). }
        destruct out as [pd'|mut own o fd m|inf pg len|r]; cbn; rewrite put_other by congruence; exact X.
  Qed.

  (** ** A ring *)
  Definition for_ring (inf : bool) (len : Z) (pd : pending) : Prop :=
    match pd with
    | ROpen i l _ _ _ | RUnlink i l _ _ | RSize i l _ | RReserve i l _ | RFirst i l _ _ | RSecond i l _ _ | RClose i l _ (Ret _) => i = inf /\ l = len
    | RUndo l _ _ _ => l = len
    | RClose _ _ _ _ => True
    | _ => False
    end.
  Lemma adv_ring inf len pd w out w' : for_ring inf len pd -> advance t plat pd w = (out, w') ->
    match out with
    | More pd' => for_ring inf len pd'
    | MadeRing i _ l => i = inf /\ l = len
    | MadeMap _ _ _ _ _ => False
    | Over r => forall k, r <> TRing (Ret k)
    end.
  Proof.
    destruct pd; cbn [for_ring]; try contradiction; cbn [advance].
    - intros [-> ->]. destruct plat; unfold then_.
      + destruct (os_call MemoryFd sys_memfd w) as [[fd|e| | |] w1]; intros [= <- <-]; cbn; auto; intros k; discriminate.
      + destruct (shm_name (clock round) pb) as [[name pb']|e| | |]; try (intros [= <- <-] k; discriminate).
        destruct (sys_open t (shm_path name) true true true false w) as [[fd|e| | |] w1]; try (intros [= <- <-] k; discriminate).
        * intros [= <- <-]. cbn. auto.
        * cbv zeta. destruct (raw_os_error (last_os_error MemoryFd e)) as [c|]; [|intros [= <- <-] k; discriminate].
          destruct (c =? EEXIST); intros [= <- <-]; [cbn; auto|intros k; discriminate].
    - intros [-> ->] E. apply pair_eq in E as [<- <-]. cbn. auto.
    - intros [-> ->]. destruct (sys_ftruncate t fd (as_signed t len) w) as [[u|e| | |] w1]; intros [= <- <-]; cbn; auto; intros k; discriminate.
    - intros [-> ->]. destruct (umul (E:=error) t len 2); try (intros [= <- <-] k; discriminate). unfold then_.
      destruct (ring_mmap t RingAllocate false 0 a false true (-1) w) as [[pg|e| | |] w1]; intros [= <- <-]; cbn; auto.
    - intros [-> ->]. destruct (ring_mmap t RingPrimary true pg len true false fd w) as [[x|e| | |] w1]; intros [= <- <-]; cbn; auto; intros k; discriminate.
    - intros [-> ->]. destruct (ring_mmap t RingSecondary true (ptr_add t pg len) len true false fd w) as [[x|e| | |] w1]; intros [= <- <-]; cbn; auto; intros k; discriminate.
    - intros ->. destruct (ignore (unmap_ring t pg len) w) as [[x|e'| | |] w1]; intros [= <- <-]; cbn; auto; intros k; discriminate.
    - destruct r as [pg|e| | |]; intros H E; apply pair_eq in E as [<- <-]; try (intros k; discriminate). exact H.
  Qed.

  Lemma ring_made s0 tid inf hint clock h s2 k s3 : tok t s0 -> ev_ok t s0 (ERing tid inf hint clock) -> ts_pool s0 tid = None ->
    tpath t plat (snd (tstep t plat (ERing tid inf hint clock) s0)) h s2 -> Forall (fun e => starts e <> Some tid) h ->
    tstep t plat (EGo tid) s2 = (TRing (Ret k), s3) ->
    tok t s3 /\ exists cap pg n o, is_ceil (t_alloc t) hint cap /\ 0 < cap /\ 2 * cap < 2 ^ t_bits t /\ pc_ring (ts_p s2) k = None /\
      pc_ring (ts_p s3) k = Some (new_held inf pg cap) /\ at_home t (pc_w (ts_p s3)) (new_held inf pg cap) n o (fun _ => 0).
  Proof.
    intros K0 EO N0 H F G. pose proof (tstep_ok t plat Ht _ _ K0 EO) as K1. pose proof (path_ok t plat Ht _ _ _ K1 H) as K2.
    pose proof (tstep_ok t plat Ht (EGo tid) s2 K2 Logic.I) as K3. rewrite G in K3. split; [exact K3|].
    cbn [ev_ok] in EO. pose proof (round_cases t Hg hint EO) as Rc.
    cbn [tstep] in H. unfold begin in H. rewrite N0 in H.
    destruct (size_round (E:=error) t (size_alloc t) hint) as [cap|e| | |] eqn:Es.
    2,3,4,5: exfalso; cbn [snd] in H;
      assert (X : follows (fun _ _ => False) tid s2) by
        (apply (follow (fun _ _ => False) tid ltac:(auto) ltac:(auto) h s0 s2 K0 H F); intros pd Hp; congruence);
      cbn [tstep] in G; destruct (ts_pool s2 tid) as [pd|] eqn:Hp; [exact (X pd Hp)|discriminate G].
    assert (X : follows (fun pd _ => for_ring inf cap pd) tid s2).
    { refine (follow (fun pd _ => for_ring inf cap pd) tid _ _ h _ s2 K1 _ F _).
      - auto.
      - intros pd pd' w w' Q _ _ E. exact (adv_ring _ _ _ _ _ _ Q E).
      - cbn [tstep]. unfold begin. rewrite N0, Es. exact H.
      - cbn [tstep]. unfold begin. rewrite N0, Es. intros pd. cbn. rewrite put_same. intros [= <-]. cbn. auto. }
    cbn [tstep] in G. destruct (ts_pool s2 tid) as [pd|] eqn:Hp; [|discriminate G]. specialize (X pd Hp).
    unfold go in G. destruct (advance t plat pd (pc_w (ts_p s2))) as [out w'] eqn:E.
    pose proof (adv_ring _ _ _ _ _ _ X E) as A.
    pose proof (adv_staged t plat Ht _ _ _ _ (ok_wf _ _ (pk_api _ _ (tk_proc _ _ K2))) (tk_pend _ _ K2 _ _ Hp) E) as St.
    pose proof (st_out _ _ _ _ _ St) as So.
    destruct out as [pd'|mut own o fd m|i pg l|r]; try discriminate G.
    2: { exfalso. injection G as -> _. exact (A k eq_refl). }
    destruct A as [-> ->]. injection G as <- <-. destruct So as (n & o & Hm & _ & _). exists cap, pg, n, o.
    assert (L0 : 0 < cap).
    { pose proof (hm_len _ _ _ _ _ _ Hm) as L. pose proof (rg_n _ _ _ _ _ _ (hm_ring _ _ _ _ _ _ Hm)). destruct inf; cbn in L; nia. }
    split; [exact (proj2 Rc L0)|]. split; [exact L0|].
    split. { pose proof (hm_low _ _ _ _ _ _ Hm). pose proof (hm_high _ _ _ _ _ _ Hm). destruct inf; cbn in *; lia. }
    split; [apply (pk_cnt _ _ (tk_proc _ _ K2)); lia|]. cbn. split; [apply put_same|exact Hm].
  Qed.
  Lemma ring_thread s0 tid hint clock h s2 k s3 h' xs s4 : tok t s0 -> ev_ok t s0 (ERing tid false hint clock) -> ts_pool s0 tid = None ->
    tpath t plat (snd (tstep t plat (ERing tid false hint clock) s0)) h s2 -> Forall (fun e => starts e <> Some tid) h ->
    tstep t plat (EGo tid) s2 = (TRing (Ret k), s3) -> tpath t plat s3 h' s4 -> trun t plat h' s3 = (xs, s4) ->
    exists cap, is_ceil (t_alloc t) hint cap /\
      (history_ok t 0 cap (calls_on k (pcalls h')) ->
       q_answers {| q_data := []; q_free := zeros cap |} (calls_on k (pcalls h')) (answers_on k (pcalls h') (presults xs))).
  Proof.
    intros K0 EO N0 H F G H' Er. destruct (ring_made _ _ _ _ _ _ _ _ _ K0 EO N0 H F G) as (K3 & cap & pg & n & o & IC & L1 & L2 & _ & Hk & Hm).
    exists cap. split; [exact IC|]. intros Ho. pose proof (make_inv t HB cap (fun _ => 0) L1 ltac:(lia)) as I.
    replace {| q_data := []; q_free := zeros cap |} with (absq (abs (kring_new pg cap) (fun _ => 0)) 0 0).
    - exact (ring_between t plat Ht h' s3 xs s4 k (kring_new pg cap) n o _ 0 0 0 K3 H' Er Hk Hm I ltac:(lia) Ho).
    - unfold absq. cbn [abs kring_new r_mem r_len k_len]. rewrite !Z.sub_0_r. rewrite view_zeros by exact L1. reflexivity.
  Qed.
  Lemma inf_thread s0 tid hint clock h s2 k s3 h' xs s4 : tok t s0 -> ev_ok t s0 (ERing tid true hint clock) -> ts_pool s0 tid = None ->
    tpath t plat (snd (tstep t plat (ERing tid true hint clock) s0)) h s2 -> Forall (fun e => starts e <> Some tid) h ->
    tstep t plat (EGo tid) s2 = (TRing (Ret k), s3) -> tpath t plat s3 h' s4 -> trun t plat h' s3 = (xs, s4) ->
    exists cap, is_ceil (t_alloc t) hint cap /\
      (ihistory_ok t 0 cap (icalls_on k (pcalls h')) ->
       lq_answers {| lq_tape := zeros cap; lq_len := 0 |} (icalls_on k (pcalls h')) (answers_on k (pcalls h') (presults xs))).
  Proof.
    intros K0 EO N0 H F G H' Er. destruct (ring_made _ _ _ _ _ _ _ _ _ K0 EO N0 H F G) as (K3 & cap & pg & n & o & IC & L1 & L2 & _ & Hk & Hm).
    exists cap. split; [exact IC|]. intros Ho. pose proof (imake_inv t HB cap (fun _ => 0) L1 L2) as I.
    replace {| lq_tape := zeros cap; lq_len := 0 |} with (abst (iabs (kiring_new pg cap) (fun _ => 0)) 0).
    - exact (inf_between t plat Ht h' s3 xs s4 k (kiring_new pg cap) n o _ 0 0 K3 H' Er Hk Hm I ltac:(lia) Ho).
    - unfold abst. cbn [iabs kiring_new i_mem i_len i_rlen ki_len ki_rlen]. rewrite view_zeros by exact L1. reflexivity.
  Qed.

  (** ** A map *)
  Section Map.
    Variables (mut own : bool) (o : options) (fd : Z) (f : fdent) (len : Z).
    Hypothesis Hlen : is_usize t len.
    Let cut := if op_truncate o then 0 else len.
    Let L := final_len (op_truncate o) (op_resize o) len.
    Definition for_map (pd : pending) (w : world) : Prop :=
      w_fd w fd = Some f /\
      match pd with
      | MCut m ow o' fd' l => m = mut /\ ow = own /\ o' = o /\ fd' = fd /\ l = len
      | MSize m ow o' fd' l => m = mut /\ ow = own /\ o' = o /\ fd' = fd /\ l = cut
      | MMap m ow o' fd' l => m = mut /\ ow = own /\ o' = o /\ fd' = fd /\ l = L
      | MClose fd' r => fd' = fd /\ forall y, r <> Ret y
      | _ => False
      end.
    Lemma for_map_fail {A} (r : out error A) w : w_fd w fd = Some f -> forall pd', map_fail own fd r = More pd' -> (forall a, r <> Ret a) -> for_map pd' w.
    Proof.
      unfold map_fail. destruct own; intros Hf pd' E N; [|discriminate E]. injection E as <-. split; [exact Hf|]. split; [reflexivity|].
      intros y. destruct r; discriminate.
    Qed.
    Lemma resize_fd sz w r w' : is_usize t sz -> resize_to t fd sz w = (r, w') -> w_fd w' = w_fd w.
    Proof.
      intros U E. apply (resize_to_spec t Ht) in E; [|exact U]. destruct r as [n|e| | |]; try contradiction E.
      - destruct E as (_ & g & q & _ & _ & ->). reflexivity.
      - apply (q_fd _ _ (proj2 E)).
    Qed.
    Lemma adv_map pd w pd' w' : for_map pd w -> pend_ok t w pd -> advance t plat pd w = (More pd', w') -> for_map pd' w'.
    Proof.
      intros [Hf Q] PO E. destruct pd; try contradiction Q; cbn [advance] in E.
      - destruct Q as (-> & -> & -> & -> & ->).
        destruct (op_truncate o && (0 <? len)) eqn:C.
        + destruct (resize_to t fd 0 w) as [r w1] eqn:Er. assert (U0 : is_usize t 0) by (split; [lia|apply Z.pow_pos_nonneg; lia]).
          pose proof (resize_fd _ _ _ _ U0 Er) as Fd. apply (resize_to_spec t Ht) in Er; [|exact U0].
          destruct r as [l|e| | |]; try contradiction Er; cbn [then_] in E; apply pair_eq in E as [E <-].
          * injection E as <-. split; [congruence|]. do 4 (split; [reflexivity|]). destruct Er as [-> _]. unfold cut.
            apply andb_true_iff in C as [-> _]. reflexivity.
          * apply (for_map_fail (A:=Z) (Err e)); [congruence|exact E|discriminate].
        + cbn [then_ sret] in E. apply pair_eq in E as [E <-]. injection E as <-. split; [exact Hf|]. do 4 (split; [reflexivity|]).
          unfold cut. destruct (op_truncate o); [|reflexivity]. apply Z.ltb_ge in C. unfold is_usize in Hlen. lia.
      - destruct Q as (-> & -> & -> & -> & ->). destruct PO as (Oo & _ & U). pose proof (proj1 Oo) as Or.
        destruct (size_part t o fd cut w) as [r w1] eqn:Er.
        assert (X : w_fd w1 = w_fd w /\ match r with Ret l => l = L | Err _ => True | _ => False end).
        { assert (R : forall sz, is_usize t sz -> resize_to t fd sz w = (r, w1) -> sz = L -> w_fd w1 = w_fd w /\ match r with Ret l => l = L | Err _ => True | _ => False end).
          { intros sz U' E' E0. split; [exact (resize_fd _ _ _ _ U' E')|]. apply (resize_to_spec t Ht) in E'; [|exact U'].
            destruct r as [l|e| | |]; try contradiction E'; [|exact Logic.I]. destruct E' as [-> _]. exact E0. }
          assert (R' : sret (E:=error) cut w = (r, w1) -> cut = L -> w_fd w1 = w_fd w /\ match r with Ret l => l = L | Err _ => True | _ => False end).
          { intros E' E0. injection E' as <- <-. auto. }
          unfold size_part in Er. unfold L, final_len in *. fold cut in R, R' |- *. destruct (op_resize o) as [|sz|sz|sz]; cbn [extent_ok] in Or.
          - exact (R' Er eq_refl).
          - exact (R sz Or Er eq_refl).
          - destruct (Z.ltb_spec cut sz); [exact (R sz Or Er ltac:(lia))|exact (R' Er ltac:(lia))].
          - destruct (Z.ltb_spec sz cut); [exact (R sz Or Er ltac:(lia))|exact (R' Er ltac:(lia))]. }
        destruct X as [Fd X]. destruct r as [l|e| | |]; try contradiction X; cbn [then_] in E; apply pair_eq in E as [E <-].
        + injection E as <-. split; [congruence|]. do 4 (split; [reflexivity|]). exact X.
        + apply (for_map_fail (A:=Z) (Err e)); [congruence|exact E|discriminate].
      - destruct Q as (-> & -> & -> & -> & ->). destruct PO as (Oo & _ & U).
        destruct (map_part t o fd L w) as [r w1] eqn:Er. apply (map_stage_spec t Ht _ _ _ _ _ _ _ Oo Hf U) in Er.
        destruct r as [[m|]|e| | |]; try contradiction Er; cbn [then_] in E; try discriminate E. apply pair_eq in E as [E <-].
        apply (for_map_fail (A:=option mapping) (Err e)); [|exact E|discriminate]. destruct Er as (_ & Q & _). rewrite (q_fd _ _ Q). exact Hf.
      - apply pair_eq in E as [E _]. discriminate E.
    Qed.
    (** The last stage. *)
    Lemma map_last s tid pd y s' : tok t s -> ts_pool s tid = Some pd -> for_map pd (pc_w (ts_p s)) -> tstep t plat (EGo tid) s = (TMap (Ret y), s') ->
      (out_of_file (op_len o) (op_offset o) L /\ y = (if own then SFile None fd else SNone) /\ ts_p s' = ts_p s) \/
      (~ out_of_file (op_len o) (op_offset o) L /\ exists k l, y = (if own then SFile (Some k) fd else SMap k) /\
         a_live (pc_a (ts_p s)) k = None /\ a_live (pc_a (ts_p s')) k = Some l /\ l_obj l = fd_obj f /\
         right_len (op_len o) (op_offset o) L (m_len (l_map l)) /\ l_off l = op_offset o /\ l_prot l = op_protect o /\ l_mut l = mut /\
         w_obj (pc_w (ts_p s')) = w_obj (pc_w (ts_p s)) /\
         forall i, 0 <= i < m_len (l_map l) -> op_offset o + i < o_size (w_obj (pc_w (ts_p s')) (fd_obj f)) ->
           map_get t (l_map l) i (pc_w (ts_p s')) = (Ret (o_data (w_obj (pc_w (ts_p s')) (fd_obj f)) (op_offset o + i)), pc_w (ts_p s'))).
    Proof.
      intros K Hp [Hf Q] G. cbn [tstep] in G. rewrite Hp in G. pose proof (tk_pend _ _ K _ _ Hp) as PO.
      destruct pd; try contradiction Q; unfold go in G; cbn [advance] in G.
      - destruct ((if op_truncate o0 && (0 <? flen) then resize_to t fd0 0 else sret flen) (pc_w (ts_p s))) as [[l|e| | |] w1]; cbn [then_] in G;
          [discriminate G|..]; unfold map_fail in G; destruct own0; discriminate G.
      - destruct (size_part t o0 fd0 flen (pc_w (ts_p s))) as [[l|e| | |] w1]; cbn [then_] in G;
          [discriminate G|..]; unfold map_fail in G; destruct own0; discriminate G.
      - destruct Q as (-> & -> & -> & -> & ->). destruct PO as (Oo & _ & U).
        destruct (map_part t o fd L (pc_w (ts_p s))) as [r w1] eqn:Er. apply (map_stage_spec t Ht _ _ _ _ _ _ _ Oo Hf U) in Er.
        destruct r as [[m|]|e| | |]; try contradiction Er; cbn [then_] in G.
        + right. destruct Er as (NO & RL & _ & C & SF). split; [exact NO|]. injection G as <- <-.
          exists (a_cnt (pc_a (ts_p s))), (file_live mut o w1 fd m). split; [reflexivity|].
          split; [apply (ok_cnt _ _ (pk_api _ _ (tk_proc _ _ K))); lia|]. cbn [set_pool ts_p pc_a add_live a_live].
          split; [apply put_same|]. cbn [file_live l_obj l_map l_off l_prot l_mut].
          split; [unfold fd_object; rewrite (sf_fd _ _ SF), Hf; reflexivity|]. split; [exact RL|].
          do 3 (split; [reflexivity|]). split; [exact (sf_obj _ _ SF)|]. unfold pc_w. cbn [set_pool ts_p pc_a add_live a_w].
          intros i Hi Hs. rewrite (get_spec t Ht _ _ _ _ _ _ (cr_backed _ _ _ _ _ _ _ _ C) i Hi Hs). do 2 f_equal. unfold shown.
          destruct (byte_entry t Ht _ _ _ _ _ _ (cr_backed _ _ _ _ _ _ _ _ C) i Hi) as (e & He & _).
          destruct (byte_page t Ht _ _ _ _ _ _ (cr_backed _ _ _ _ _ _ _ _ C) i Hi) as (_ & Ho & _).
          rewrite He. destruct (cr_fresh _ _ _ _ _ _ _ _ C _ _ Ho He) as (-> & _). reflexivity.
        + left. destruct Er as [-> NO]. split; [exact NO|]. injection G as <- <-. split; [reflexivity|]. cbn. destruct (ts_p s) as [[] ? ?]. reflexivity.
        + exfalso. unfold map_fail in G. destruct own; discriminate G.
      - exfalso. destruct Q as [_ Q]. injection G as -> _. exact (Q y eq_refl).
    Qed.
  End Map.

  Lemma map_thread s tid mut own o fd f h s2 y s3 : tok t s -> ts_pool s tid = Some (MStat mut own o fd) -> w_fd (pc_w (ts_p s)) fd = Some f ->
    tpath t plat (snd (tstep t plat (EGo tid) s)) h s2 -> Forall (fun e => starts e <> Some tid) h ->
    tstep t plat (EGo tid) s2 = (TMap (Ret y), s3) ->
    let L := final_len (op_truncate o) (op_resize o) (as_usize t (o_size (w_obj (pc_w (ts_p s)) (fd_obj f)))) in
    (out_of_file (op_len o) (op_offset o) L /\ y = (if own then SFile None fd else SNone) /\ ts_p s3 = ts_p s2) \/
    (~ out_of_file (op_len o) (op_offset o) L /\ exists k l, y = (if own then SFile (Some k) fd else SMap k) /\
       a_live (pc_a (ts_p s2)) k = None /\ a_live (pc_a (ts_p s3)) k = Some l /\ l_obj l = fd_obj f /\
       right_len (op_len o) (op_offset o) L (m_len (l_map l)) /\ l_off l = op_offset o /\ l_prot l = op_protect o /\ l_mut l = mut /\
       w_obj (pc_w (ts_p s3)) = w_obj (pc_w (ts_p s2)) /\
       forall i, 0 <= i < m_len (l_map l) -> op_offset o + i < o_size (w_obj (pc_w (ts_p s3)) (fd_obj f)) ->
         map_get t (l_map l) i (pc_w (ts_p s3)) = (Ret (o_data (w_obj (pc_w (ts_p s3)) (fd_obj f)) (op_offset o + i)), pc_w (ts_p s3))).
  Proof.
    intros K Hp Hf H F G. cbv zeta. set (len := as_usize t (o_size (w_obj (pc_w (ts_p s)) (fd_obj f)))).
    assert (Ul : is_usize t len) by (apply Z.mod_pos_bound, Z.pow_pos_nonneg; lia).
    pose proof (tstep_ok t plat Ht (EGo tid) s K Logic.I) as K1. pose proof (path_ok t plat Ht _ _ _ K1 H) as K2.
    assert (S1 : follows (for_map mut own o fd f len) tid (snd (tstep t plat (EGo tid) s))).
    { intros pd. cbn [tstep]. rewrite Hp. unfold go. cbn [advance]. unfold sbind, io_call, file_len.
      destruct (sys_fstat fd (pc_w (ts_p s))) as [r w1] eqn:Es. apply fstat_spec in Es as [Q Es].
      destruct r as [l|e| | |]; try contradiction Es.
      - destruct Es as (g & Hg' & ->). assert (g = f) by congruence. subst g. cbn. rewrite put_same. intros [= <-].
        split; [unfold pc_w; cbn; rewrite (q_fd _ _ Q); exact Hf|]. auto 6.
      - cbn [then_]. unfold map_fail. destruct own; cbn; rewrite put_same; intros [= <-].
        split; [unfold pc_w; cbn; rewrite (q_fd _ _ Q); exact Hf|]. split; [reflexivity|discriminate]. }
    assert (S2 : follows (for_map mut own o fd f len) tid s2).
    { refine (follow (for_map mut own o fd f len) tid _ _ h _ s2 K1 H F S1).
      - intros pd w w' [Qf Q] Kp. split; [|exact Q]. rewrite (kp_fd _ _ _ _ Kp); [exact Qf|].
        destruct pd; try contradiction Q; cbn [pd_fd]; try (destruct Q as (_ & _ & _ & -> & _); reflexivity). destruct Q as [-> _]. reflexivity.
      - intros pd pd' w w' Q _ PO E. exact (adv_map mut own o fd f len Ul pd w pd' w' Q PO E). }
    assert (Hp2 : exists pd, ts_pool s2 tid = Some pd).
    { cbn [tstep] in G. destruct (ts_pool s2 tid) as [pd|]; [eauto|discriminate G]. }
    destruct Hp2 as (pd & Hp2). exact (map_last mut own o fd f len s2 tid pd y s3 K2 Hp2 (S2 pd Hp2) G).
  Qed.

End Claims.

(** ** A call ends *)
Section Ends.
  Variable t : target.
  Variable plat : platform.

  Lemma fewer pd w pd' w' : (plat = Anonymous \/ searching pd = false) -> advance t plat pd w = (More pd', w') ->
    (steps_left pd' < steps_left pd)%nat /\ searching pd' = false.
  Proof.
    intros C E. assert (MF : forall own fd (A : Type) (r : out error A) pd', map_fail own fd r = More pd' -> steps_left pd' = 1%nat /\ searching pd' = false).
    { unfold map_fail. intros [] fd A r x E'; [injection E' as <-; auto|discriminate E']. }
    assert (TH : forall A (own : bool) fd (x : out error A * world) (next : A -> pending) k, then_ (map_fail own fd) x (fun a => More (next a)) = (More pd', w') ->
      (forall a, steps_left (next a) = S k /\ searching (next a) = false) -> (steps_left pd' < S (S k))%nat /\ searching pd' = false).
    { intros A own fd x next k E' N. destruct x as [[a|e| | |] w1]; cbn [then_] in E'; apply pair_eq in E' as [E' _].
      1: injection E' as <-; destruct (N a) as [N1 N2]; split; [lia|exact N2].
      all: destruct (MF _ _ _ _ _ E') as [M1 M2]; split; [lia|exact M2]. }
    destruct pd; cbn [advance] in E; cbn [steps_left].
    - destruct (io_call (file_open t (op_open o) path) w) as [[fd|e| | |] w1]; try discriminate E. injection E as <- <-. cbn. auto.
    - exact (TH _ _ _ _ _ 3%nat E (fun _ => conj eq_refl eq_refl)).
    - exact (TH _ _ _ _ _ 2%nat E (fun _ => conj eq_refl eq_refl)).
    - exact (TH _ _ _ _ _ 1%nat E (fun _ => conj eq_refl eq_refl)).
    - destruct (map_part t o fd flen w) as [[[m|]|e| | |] w1]; cbn [then_] in E; try discriminate E; apply pair_eq in E as [E _];
        destruct (MF _ _ _ _ _ E) as [M1 M2]; split; [lia|exact M2|lia|exact M2|lia|exact M2|lia|exact M2].
    - apply pair_eq in E as [E _]. discriminate E.
    - destruct C as [->|C]; [|discriminate C]. destruct (os_call MemoryFd sys_memfd w) as [[fd|e| | |] w1]; try discriminate E. injection E as <- <-. cbn. auto.
    - apply pair_eq in E as [E _]. injection E as <-. cbn. auto.
    - destruct (sys_ftruncate t fd (as_signed t len) w) as [[u|e| | |] w1]; try discriminate E; injection E as <- <-; cbn; split; auto; lia.
    - destruct (umul (E:=error) t len 2); try discriminate E.
      destruct (ring_mmap t RingAllocate false 0 a false true (-1) w) as [[pg|e| | |] w1]; cbn [then_] in E; injection E as <- <-; cbn; split; auto; lia.
    - destruct (ring_mmap t RingPrimary true pg len true false fd w) as [[x|e| | |] w1]; try discriminate E; injection E as <- <-; cbn; split; auto; lia.
    - destruct (ring_mmap t RingSecondary true (ptr_add t pg len) len true false fd w) as [[x|e| | |] w1]; try discriminate E; injection E as <- <-; cbn; split; auto; lia.
    - destruct (ignore (unmap_ring t pg len) w) as [[x|e'| | |] w1]; try discriminate E; injection E as <- <-; cbn; split; auto; lia.
    - destruct r as [pg|e| | |]; apply pair_eq in E as [E _]; discriminate E.
  Qed.

  (** The pool entry of a thread after an event. *)
  Lemma pool_after e s tid : starts e <> Some tid -> e <> EGo tid -> ts_pool (snd (tstep t plat e s)) tid = ts_pool s tid.
  Proof.
    intros N G. destruct e as [c|i mut o path|i mut o fd|i inf hint clock|i]; cbn [tstep starts] in *.
    - destruct (pstep t plat c (ts_p s)); reflexivity.
    - unfold begin. destruct (ts_pool s i); [reflexivity|]. apply put_other. congruence.
    - unfold begin. destruct (ts_pool s i); [reflexivity|]. apply put_other. congruence.
    - unfold begin. destruct (ts_pool s i); [reflexivity|]. destruct (size_round (E:=error) t (size_alloc t) hint); try reflexivity. apply put_other. congruence.
    - destruct (ts_pool s i) as [pd|]; [|reflexivity]. unfold go. destruct (advance t plat pd (pc_w (ts_p s))) as [out w'].
      destruct out; apply put_other; congruence.
  Qed.
  Lemma ends h : forall s tid, Forall (fun e => starts e <> Some tid) h ->
    (forall pd, ts_pool s tid = Some pd -> (plat = Anonymous \/ searching pd = false) /\ (steps_left pd <= own_steps tid h)%nat) ->
    ts_pool (snd (trun t plat h s)) tid = None.
  Proof.
    induction h as [|e h IH]; intros s tid F H.
    - cbn. destruct (ts_pool s tid) as [pd|] eqn:Hp; [|reflexivity]. destruct (H pd eq_refl) as [_ L]. exfalso. destruct pd; cbn in L; lia.
    - apply Forall_cons_iff in F as [N F]. cbn [trun].
      assert (X : ts_pool (snd (trun t plat h (snd (tstep t plat e s)))) tid = None).
      2: { destruct (tstep t plat e s) as [x s1]. cbn [snd] in X. destruct (trun t plat h s1) as [xs s2]. exact X. }
      apply IH; [exact F|]. intros pd Hp.
      assert (D : e = EGo tid \/ (e <> EGo tid /\ own_steps tid (e :: h) = own_steps tid h)).
      { destruct e; try (right; split; [discriminate|reflexivity]). cbn [own_steps]. destruct (Z.eqb_spec tid0 tid); [left; congruence|right; split; congruence]. }
      destruct D as [->|[D1 D2]].
      + cbn [own_steps] in H. rewrite Z.eqb_refl in H. cbn [tstep] in Hp. destruct (ts_pool s tid) as [pd0|] eqn:Hp0; [|cbn in Hp; congruence].
        destruct (H pd0 eq_refl) as [C L]. unfold go in Hp. destruct (advance t plat pd0 (pc_w (ts_p s))) as [out w'] eqn:E.
        destruct out; cbn in Hp; rewrite put_same in Hp; try discriminate Hp. injection Hp as ->.
        destruct (fewer _ _ _ _ C E) as [L2 S2]. split; [auto|lia].
      + rewrite (pool_after e s tid N D1) in Hp. rewrite D2 in H. exact (H pd Hp).
  Qed.
End Ends.
