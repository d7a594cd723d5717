(** Calls in progress on Windows: the stages, run without interruption, are
    the call. *)
From Coq Require Import Lia.
From Verif Require Import Base Spec ErrorModel SizeModel OsModel MapModel MapSpec RingMapModel RingMapSpec SizeProofs OsProofs
  MapProofs MapCreate MapOps MirrorProofs RingMapClaims MemRingModel ProcModel ProcFrame ProcProofs ProcPages
  WinModel WinSpec WinProofs WinClaims WinCalls WinMapModel WinMapSpec WinSpace WinKeep WinMapProofs WinAlloc WinThings WinHist WinLeak WinMapClaims
  WinProcModel WinProcSpec WinProcProofs WinLedgerSpec WinLedger WinThreadModel WinThreadSpec WinThreadInv WinThreadAdv WinThreadStep.

Section Alone.
  Variable t : target.
  Hypothesis Ht : good_target t.
  Notation P := (t_page t).
  Notation G := (t_alloc t).
  Let HP : 0 < P.
  Proof. exact (pow2_pos _ (proj1 (proj2 Ht))). Qed.

  (** Where the stages lead. *)
  Inductive ends : wpend -> win -> woutcome -> win -> Prop :=
  | en_last pd s x s' : wadvance t pd s = (x, s') -> (forall pd', x <> WMore pd') -> ends pd s x s'
  | en_more pd s pd' s1 x s' : wadvance t pd s = (WMore pd', s1) -> ends pd' s1 x s' -> ends pd s x s'.

  Definition done (p : wproc) (x : woutcome) (s' : win) : wtresult * wproc :=
    let g := wp_g p in
    match x with
    | WMore _ => (WTNone, p)
    | WMadeFile mut own o fd ob m => (WTMap (Ret (if own then GFile (Some (g_cnt g)) fd else GThing (g_cnt g))),
        {| wp_g := g_add g s' (made_file mut o ob m); wp_ring := wp_ring p |})
    | WMadeAnon mut o ob m => (WTMap (Ret (GThing (g_cnt g))), {| wp_g := g_add g s' (made_anon t mut o ob m); wp_ring := wp_ring p |})
    | WMadeRing inf ob pg len => (WTRing (Ret (g_cnt g)),
        {| wp_g := g_add g s' (TRing {| ra_ptr := pg; ra_len := len |} ob); wp_ring := put (wp_ring p) (g_cnt g) (Some (wnew_held inf pg len)) |})
    | WOver r => (r, wp_set p s')
    end.
  Lemma done_set p s x s' : done (wp_set p s) x s' = match x with WMore _ => (WTNone, wp_set p s) | _ => done p x s' end.
  Proof. destruct x; reflexivity. Qed.

  Lemma ends_finish tid pd s x s' : ends pd s x s' -> forall S, wt_pool S tid = Some pd -> g_s (wp_g (wt_p S)) = s ->
    exists n S', wfinish t n tid S = (fst (done (wt_p S) x s'), S') /\ wt_p S' = snd (done (wt_p S) x s') /\ wt_pool S' tid = None /\
      forall i, i <> tid -> wt_pool S' i = wt_pool S i.
  Proof.
    induction 1 as [pd s x s' E Hx|pd s pd' s1 x s' E H IH]; intros S Hp Hs.
    - exists 1%nat, (wset_pool S (snd (done (wt_p S) x s')) tid None). cbn [wfinish wtstep]. rewrite Hp. unfold wgo. rewrite Hs, E.
      destruct x; try (destruct (Hx _ eq_refl)); cbn [done fst snd wset_pool wt_pool wt_p]; rewrite put_same;
        (split; [reflexivity|]); (split; [reflexivity|]); (split; [reflexivity|]); intros i Hi; apply put_other, Hi.
    - set (S1 := wset_pool S (wp_set (wt_p S) s1) tid (Some pd')). destruct (IH S1) as (n & S' & F & A & B & C).
      + unfold S1. cbn. apply put_same.
      + reflexivity.
      + assert (Nx : forall q, x <> WMore q) by (clear - H; induction H; auto).
        exists (Datatypes.S n), S'. assert (D : done (wt_p S1) x s' = done (wt_p S) x s').
        { unfold S1. cbn [wset_pool wt_p]. rewrite done_set. destruct x; try reflexivity. destruct (Nx _ eq_refl). }
        rewrite D in *. split; [|split; [exact A|split; [exact B|]]].
        * cbn [wfinish wtstep]. rewrite Hp. unfold wgo. rewrite Hs, E. fold S1. replace (wt_pool S1 tid) with (Some pd') by (symmetry; apply put_same). exact F.
        * intros i Hi. rewrite (C i Hi). apply put_other, Hi.
  Qed.

  (** ** map_if *)
  Definition map_end (mut own : bool) (o : options) (fd ob : Z) (x : out error (option mapping) * win) : woutcome * win :=
    match x with
    | (Ret (Some m), s') => (WMadeFile mut own o fd ob m, s')
    | (Ret None, s') => (WOver (WTMap (Ret (if own then GFile None fd else GNone))), s')
    | (r, s') => (WOver (WTMap (wfailure r)), if own then with_w s' (snd (sys_close fd (n_w s'))) else s')
    end.
  Lemma ends_fail {A} pd s own fd (r : out error A) s' mut o ob : (forall a, r <> Ret a) -> wadvance t pd s = (vfail own fd r, s') ->
    ends pd s (fst (map_end mut own o fd ob (wfailure r, s'))) (snd (map_end mut own o fd ob (wfailure r, s'))).
  Proof.
    intros Hr E. assert (X : map_end mut own o fd ob (wfailure r, s') = (WOver (WTMap (wfailure r)), if own then with_w s' (snd (sys_close fd (n_w s'))) else s')).
    { destruct r; try reflexivity; destruct (Hr _ eq_refl). }
    rewrite X. cbn [fst snd]. unfold vfail in E. destruct own.
    - refine (en_more _ _ _ _ _ _ E _). apply en_last; [reflexivity|discriminate].
    - apply en_last; [exact E|discriminate].
  Qed.
  Lemma ends_then {A} pd s (x : out error A * win) next own fd mut o ob K : wadvance t pd s = wthen (vfail own fd) x (fun a => WMore (next a)) ->
    (forall a s', x = (Ret a, s') -> ends (next a) s' (fst (map_end mut own o fd ob (K a s'))) (snd (map_end mut own o fd ob (K a s')))) ->
    let y := match x with (Ret a, s') => K a s' | (r, s') => (wfailure r, s') end in
    ends pd s (fst (map_end mut own o fd ob y)) (snd (map_end mut own o fd ob y)).
  Proof.
    intros E N. destruct x as [[a|e| | |] s']; cbn [wthen] in E; [exact (en_more _ _ _ _ _ _ E (N a s' eq_refl))|..];
      refine (ends_fail pd s own fd _ s' mut o ob _ E); discriminate.
  Qed.
  Lemma fail_same {A B} (r : out error A) : (forall a, r <> Ret a) -> (match r with Ret _ => Blocked | Err e => Err e | Panic => Panic | Fault => Fault | Blocked => Blocked end : out error B) = wfailure r.
  Proof. destruct r; reflexivity. Qed.

  Lemma view_fd h op acc off len at_ s r s' : 0 <= off < 2 ^ 64 -> handle_view t h op acc off len at_ s = (r, s') -> w_fd (n_w s') = w_fd (n_w s).
  Proof.
    intros Ho E. apply win_call_run in E. destruct r as [b|e| | |]; try destruct E as (z & E & _); apply (map_view_spec t _ _ _ _ _ _ _ _ Ho) in E as [_ E]; try contradiction.
    - destruct E as (_ & c & _ & _ & V). exact (vw_fd _ _ _ _ _ _ _ _ V).
    - exact (q_fd _ _ (wq_w _ _ E)).
  Qed.
  Lemma fd_objw_eq w w' fd : w_fd w' = w_fd w -> fd_objw w' fd = fd_objw w fd.
  Proof. unfold fd_objw. intros ->. reflexivity. Qed.

  (** the part of [wmap_if] after the file has its length *)
  Definition wmap_part (o : options) (fd flen : Z) : WT error (option mapping) :=
    if flen <? op_offset o then wret None
    else
      wbind (wout (usub t flen (op_offset o))) (fun max =>
      match extent_len (op_len o) max with
      | None => wret None
      | Some len =>
        wbind (wout (size_truncate t (size_alloc t) (op_offset o))) (fun mapoff =>
        wbind (wout (usub t (op_offset o) mapoff)) (fun d =>
        wbind (wout (uadd t len d)) (fun maplen =>
        wbind (win_map_file t fd mapoff maplen (op_protect o)) (fun ptr =>
        wret (Some {| m_ptr := ptr_add t ptr d; m_len := len |})))))
      end).
  Lemma wmap_part_plan o fd flen s : wmap_part o fd flen s =
    match vplan t o flen with
    | Ret None => (Ret None, s)
    | Ret (Some (mapoff, maplen, d, len)) =>
      match win_map_file t fd mapoff maplen (op_protect o) s with
      | (Ret ptr, s') => (Ret (Some {| m_ptr := ptr_add t ptr d; m_len := len |}), s')
      | (r, s') => (wfailure r, s')
      end
    | r => (wfailure r, s)
    end.
  Proof.
    unfold wmap_part, vplan. cbv zeta. destruct (flen <? op_offset o); [reflexivity|]. unfold wbind at 1, wout at 1.
    destruct (usub (E:=error) t flen (op_offset o)) as [max|e| | |]; try reflexivity. cbn [obind].
    destruct (extent_len (op_len o) max) as [len|]; [|reflexivity]. unfold wbind at 1, wout at 1.
    destruct (size_truncate (E:=error) t (size_alloc t) (op_offset o)) as [mo|e| | |]; try reflexivity. cbn [obind]. unfold wbind at 1, wout at 1.
    destruct (usub (E:=error) t (op_offset o) mo) as [d|e| | |]; try reflexivity. cbn [obind]. unfold wbind at 1, wout at 1.
    destruct (uadd (E:=error) t len d) as [ml|e| | |]; try reflexivity. cbn [obind]. unfold wbind at 1.
    destruct (win_map_file t fd mo ml (op_protect o) s) as [[p|e| | |] s']; reflexivity.
  Qed.
  Lemma ends_part mut own o fd flen s : options_ok t o -> is_usize t flen ->
    let x := wmap_part o fd flen s in
    let y := map_end mut own o fd (fd_objw (n_w (snd x)) fd) x in ends (VCreate mut own o fd flen) s (fst y) (snd y).
  Proof.
    intros Ho Hf. cbv zeta. rewrite wmap_part_plan. pose proof (word_64 t Ht) as W64. pose proof Ho as (_ & _ & Uo). unfold is_usize in Uo.
    destruct (vplan_spec t Ht o flen Ho Hf) as [E|(len & E & Hl & Hh)]; rewrite E.
    - cbn [map_end fst snd]. apply en_last; [cbn [wadvance]; rewrite E; reflexivity|discriminate].
    - pose proof (Z.mod_pos_bound (op_offset o) G (pow2_pos _ (proj1 (proj2 (proj2 Ht))))) as D2.
      assert (Do : op_offset o mod G <= op_offset o) by (apply Z.mod_le; [lia|apply (pow2_pos _ (proj1 (proj2 (proj2 Ht))))]).
      unfold win_map_file. destruct (protect_pair (op_protect o)) as [pr acc] eqn:Ep. unfold wbind.
      destruct (handle_new t MapFileHandle (Some fd) pr 0 s) as [[h|e| | |] s1] eqn:E1;
        try (cbn [snd]; refine (ends_fail _ s own fd _ s1 mut o _ _ _); [discriminate|cbn [wadvance]; rewrite E, Ep; cbn [fst]; rewrite E1; reflexivity]).
      eapply en_more; [cbn [wadvance]; rewrite E, Ep; cbn [fst]; rewrite E1; reflexivity|]. unfold scoped.
      destruct (handle_view t h MapFileView acc (op_offset o - op_offset o mod G) (len + op_offset o mod G) 0 s1) as [r s2] eqn:E2.
      assert (Bo : 0 <= op_offset o - op_offset o mod G < 2 ^ 64) by lia.
      assert (Fd : fd_objw (n_w (snd (close_handle h s2))) fd = fd_objw (n_w s) fd).
      { apply fd_objw_eq. change (w_fd (n_w (snd (close_handle h s2)))) with (w_fd (n_w s2)). rewrite (view_fd _ _ _ _ _ _ _ _ _ Bo E2).
        apply win_call_run in E1. apply create_file_spec in E1 as [_ (_ & _ & f & _ & _ & _ & Q & _)]. exact (q_fd _ _ Q). }
      eapply en_more.
      { cbn [wadvance]. unfold uadd. rewrite wrap_in by lia. rewrite Ep. cbn [snd]. rewrite E2. reflexivity. }
      destruct r as [ptr|e| | |]; cbn [snd].
      + rewrite Fd. apply en_last; [reflexivity|discriminate].
      + refine (ends_fail _ s2 own fd _ _ mut o _ _ _); [discriminate|reflexivity].
      + refine (ends_fail _ s2 own fd _ _ mut o _ _ _); [discriminate|reflexivity].
      + refine (ends_fail _ s2 own fd _ _ mut o _ _ _); [discriminate|reflexivity].
      + refine (ends_fail _ s2 own fd _ _ mut o _ _ _); [discriminate|reflexivity].
  Qed.
  Lemma bind_match {A B} (m : WT error A) (k : A -> WT error B) s : wbind m k s = match m s with (Ret a, s') => k a s' | (r, s') => (wfailure r, s') end.
  Proof. unfold wbind. destruct (m s) as [[a|e| | |] s']; reflexivity. Qed.
  Lemma wmap_if_parts o fd s : wmap_if t o fd s =
    match lift (do* l <- io_call (file_len fd); sret (as_usize t l)) s with
    | (Ret l, s1) =>
      match lift (if op_truncate o && (0 <? l) then resize_to t fd 0 else sret l) s1 with
      | (Ret l, s2) =>
        match lift (vsize t o fd l) s2 with
        | (Ret l, s3) => wmap_part o fd l s3
        | (r, s3) => (wfailure r, s3)
        end
      | (r, s2) => (wfailure r, s2)
      end
    | (r, s1) => (wfailure r, s1)
    end.
  Proof.
    unfold wmap_if. cbv zeta. rewrite bind_match. destruct (lift _ s) as [[l|e| | |] s1]; try reflexivity.
    rewrite bind_match. destruct (lift _ s1) as [[l2|e| | |] s2]; try reflexivity. rewrite bind_match. fold (vsize t o fd l2).
    destruct (lift (vsize t o fd l2) s2) as [[l3|e| | |] s3]; reflexivity.
  Qed.

  Lemma ends_map mut own o fd s : options_ok t o ->
    let x := wmap_if t o fd s in
    let y := map_end mut own o fd (fd_objw (n_w (snd x)) fd) x in ends (VStat mut own o fd) s (fst y) (snd y).
  Proof.
    intros Ho. cbv zeta. rewrite wmap_if_parts.
    destruct (lift (do* l <- io_call (file_len fd); sret (as_usize t l)) s) as [r1 s1] eqn:E1.
    assert (A1 : wadvance t (VStat mut own o fd) s = wthen (vfail own fd) (r1, s1) (fun l => WMore (VCut mut own o fd l))) by (cbn [wadvance]; rewrite E1; reflexivity).
    destruct r1 as [l1|e| | |]; try (refine (ends_fail _ s own fd _ s1 mut o _ _ A1); discriminate).
    refine (en_more _ _ _ _ _ _ A1 _). clear A1.
    destruct (lift (if op_truncate o && (0 <? l1) then resize_to t fd 0 else sret l1) s1) as [r2 s2] eqn:E2.
    assert (A2 : wadvance t (VCut mut own o fd l1) s1 = wthen (vfail own fd) (r2, s2) (fun l => WMore (VSize mut own o fd l))) by (cbn [wadvance]; rewrite E2; reflexivity).
    destruct r2 as [l2|e| | |]; try (refine (ends_fail _ s1 own fd _ s2 mut o _ _ A2); discriminate).
    refine (en_more _ _ _ _ _ _ A2 _). clear A2.
    destruct (lift (vsize t o fd l2) s2) as [r3 s3] eqn:E3.
    assert (A3 : wadvance t (VSize mut own o fd l2) s2 = wthen (vfail own fd) (r3, s3) (fun l => WMore (VCreate mut own o fd l))) by (cbn [wadvance]; rewrite E3; reflexivity).
    destruct r3 as [l3|e| | |]; try (refine (ends_fail _ s2 own fd _ s3 mut o _ _ A3); discriminate).
    refine (en_more _ _ _ _ _ _ A3 _). clear A3. apply (ends_part mut own o fd l3 s3 Ho).
    assert (HB : 0 < 2 ^ t_bits t) by (apply Z.pow_pos_nonneg; destruct Ht as [[E|E] _]; lia).
    apply lift_inv in E3 as (w3 & E3 & _). unfold vsize in E3. apply lift_inv in E2 as (w2 & E2 & _). apply lift_inv in E1 as (w1 & E1 & _).
    assert (U1 : is_usize t l1).
    { unfold sbind, io_call, file_len in E1. destruct (sys_fstat fd (n_w s)) as [[n|e| | |] w1']; try discriminate E1. injection E1 as <- _. apply Z.mod_pos_bound, HB. }
    assert (Rs : forall sz w w' n, resize_to t fd sz w = (Ret n, w') -> n = sz).
    { intros sz w w' n E. unfold resize_to, sbind in E. destruct (io_call _ w) as [[]]; try discriminate E. injection E as <- _. reflexivity. }
    assert (U2 : is_usize t l2).
    { destruct (op_truncate o && (0 <? l1)); [apply Rs in E2 as ->; split; lia|]. injection E2 as <- _. exact U1. }
    destruct Ho as (Ur & _). destruct (op_resize o) as [|z|z|z]; cbn [extent_ok] in Ur.
    - injection E3 as <- _. exact U2.
    - apply Rs in E3 as ->; exact Ur.
    - destruct (l2 <? z); [apply Rs in E3 as ->; exact Ur|]. injection E3 as <- _. exact U2.
    - destruct (z <? l2); [apply Rs in E3 as ->; exact Ur|]. injection E3 as <- _. exact U2.
  Qed.

  (** ** alloc *)
  Definition anon_end (mut : bool) (o : options) (ob : Z) (x : out error mapping * win) : woutcome * win :=
    match x with
    | (Ret m, s') => (WMadeAnon mut o ob m, s')
    | (r, s') => (WOver (WTMap (wfailure r)), s')
    end.
  Lemma walloc_plan o s : walloc t o s =
    match nplan t o with
    | Ret (off, len, total) =>
      match win_map_anon t total (op_protect o) s with
      | (Ret ptr, s') => (Ret {| m_ptr := ptr_add t ptr off; m_len := len |}, s')
      | (r, s') => (wfailure r, s')
      end
    | r => (wfailure r, s)
    end.
  Proof.
    set (L := fun off => match op_len o with
                | ExtEnd => let* a := uadd (E:=error) t off 1 in let* r := size_round t (size_alloc t) a in usub t r off
                | ExtMin l => let* a := uadd t off l in let* r := size_round t (size_alloc t) a in usub t r off
                | ExtMax l => Ret l
                | ExtExact l => Ret l
                end).
    change (nplan t o) with (let* off := size_offset t (size_page t) (op_offset o) in let* len := L off in let* total := uadd t off len in Ret (off, len, total)).
    assert (E : walloc t o s = wbind (wout (size_offset t (size_page t) (op_offset o))) (fun off => wbind (wout (L off)) (fun len =>
      wbind (wout (uadd t off len)) (fun total => wbind (win_map_anon t total (op_protect o)) (fun ptr => wret {| m_ptr := ptr_add t ptr off; m_len := len |})))) s).
    { unfold walloc. rewrite !bind_match. unfold wout at 1. unfold wout at 3. destruct (size_offset (E:=error) t (size_page t) (op_offset o)); try reflexivity.
      unfold L. destruct (op_len o); reflexivity. }
    rewrite E. clear E. clearbody L. rewrite bind_match. unfold wout at 1. destruct (size_offset t (size_page t) (op_offset o)) as [off|e| | |]; [|reflexivity..]. cbn [obind].
    rewrite bind_match. unfold wout at 1. destruct (L off) as [len|e| | |]; [|reflexivity..]. cbn [obind].
    rewrite bind_match. unfold wout at 1. destruct (uadd t off len) as [total|e| | |]; [|reflexivity..]. cbn [obind].
    rewrite bind_match. destruct (win_map_anon t total (op_protect o) s) as [[p|e| | |] s']; reflexivity.
  Qed.
  Lemma ends_alloc mut o off len total s : nplan t o = Ret (off, len, total) ->
    let y := anon_end mut o (w_next (n_w s)) (walloc t o s) in ends (NCreate mut o off len total) s (fst y) (snd y).
  Proof.
    intros E. cbv zeta. rewrite walloc_plan, E. unfold win_map_anon. destruct (protect_pair (op_protect o)) as [pr acc] eqn:Ep. rewrite bind_match.
    destruct (handle_new t MapAnonymousHandle None pr total s) as [[h|e| | |] s1] eqn:E1;
      try (apply en_last; [cbn [wadvance]; rewrite Ep; cbn [fst]; rewrite E1; reflexivity|discriminate]).
    eapply en_more; [cbn [wadvance]; rewrite Ep; cbn [fst]; rewrite E1; reflexivity|]. unfold scoped.
    destruct (handle_view t h MapAnonymousView acc 0 total 0 s1) as [r s2] eqn:E2.
    eapply en_more; [cbn [wadvance]; rewrite Ep; cbn [snd]; rewrite E2; reflexivity|].
    apply en_last; destruct r; try reflexivity; discriminate.
  Qed.

  (** ** rings *)
  Definition ring_end (inf : bool) (len h ob : Z) (x : out error Z * win) : woutcome * win :=
    (match fst x with Ret pg => WMadeRing inf ob pg len | r => WOver (WTRing (wfailure r)) end, snd (close_handle h (snd x))).
  Lemma ends_kdone inf len h ob r s : let y := ring_end inf len h ob (r, s) in ends (KDone inf len h ob r) s (fst y) (snd y).
  Proof. apply en_last; destruct r; try reflexivity; discriminate. Qed.
  Lemma view_at h op acc off len at_ s a s' : 0 <= off < 2 ^ 64 -> at_ <> 0 -> handle_view t h op acc off len at_ s = (Ret a, s') -> a = at_.
  Proof. intros Ho N E. apply win_call_run in E. apply (map_view_spec t _ _ _ _ _ _ _ _ Ho) in E as [_ (E & _)]. auto. Qed.
  Lemma ends_loop inf len full h ob : forall more s x, ring_loop t more h len full s = x ->
    let y := ring_end inf len h ob x in ends (KReserve inf len full h ob more) s (fst y) (snd y).
  Proof.
    induction more as [|more IH]; intros s x E; cbv zeta; cbn [ring_loop] in E; unfold reserve in E; rewrite !bind_match in E.
    all: destruct (win_call RingAllocate (virtual_alloc t full) s) as [[pg|e| | |] s1] eqn:E1;
      try (subst x; eapply en_more; [cbn [wadvance]; rewrite E1; reflexivity|apply ends_kdone]).
    all: eapply en_more; [cbn [wadvance]; rewrite E1; reflexivity|].
    all: assert (Np : pg <> 0) by (apply win_call_run in E1; apply (alloc_spec t) in E1 as (_ & _ & _ & _ & R & _); apply (range_ok_iff t) in R; lia).
    all: rewrite bind_match in E.
    all: destruct (no_result (virtual_free t pg) s1) as [[[]|e| | |] s2] eqn:E2;
      try (subst x; eapply en_more; [cbn [wadvance]; rewrite E2; reflexivity|apply ends_kdone]).
    all: eapply en_more; [cbn [wadvance]; rewrite E2; reflexivity|]; unfold wret at 1 in E; unfold map_ring_handle in E; rewrite bind_match in E.
    all: destruct (handle_view t h RingPrimary MapReadWrite 0 len pg s2) as [[a|e| | |] s3] eqn:E3;
      try (eapply en_more; [cbn [wadvance]; rewrite E3; reflexivity|]; first [subst x; apply ends_kdone|exact (IH _ _ E)]).
    all: assert (a = pg) by (refine (view_at _ _ _ _ _ _ _ _ _ _ Np E3); lia); subst a.
    all: eapply en_more; [cbn [wadvance]; rewrite E3; reflexivity|].
    all: destruct (handle_view t h RingSecondary MapReadWrite 0 len (ptr_add t pg len) s3) as [[b|e| | |] s4] eqn:E4;
      try (subst x; eapply en_more; [cbn [wadvance]; rewrite E4; reflexivity|apply ends_kdone]).
    all: eapply en_more; [cbn [wadvance]; rewrite E4; reflexivity|]; rewrite bind_match in E.
    all: destruct (no_result (unmap_view t pg) s4) as [[[]|e'| | |] s5] eqn:E5;
      try (eapply en_more; [cbn [wadvance]; rewrite E5; reflexivity|]; first [subst x; apply ends_kdone|exact (IH _ _ E)]).
    all: apply no_result_run in E5 as ([] & _ & E5); discriminate E5.
  Qed.
  Lemma ends_ring inf len full s : umul (E:=error) t 2 len = Ret full ->
    let y := match win_map_ring t len s with
             | (Ret pg, s') => (WMadeRing inf (w_next (n_w s)) pg len, s')
             | (r, s') => (WOver (WTRing (wfailure r)), s')
             end in ends (KCreate inf len full) s (fst y) (snd y).
  Proof.
    intros E. cbv zeta. unfold win_map_ring. rewrite bind_match. unfold wout. rewrite E, bind_match.
    destruct (handle_new t RingAllocate None PageReadWrite full s) as [[h|e| | |] s1] eqn:E1;
      try (apply en_last; [cbn [wadvance]; rewrite E1; reflexivity|discriminate]).
    eapply en_more; [cbn [wadvance]; rewrite E1; reflexivity|]. unfold scoped.
    pose proof (ends_loop inf len full h (w_next (n_w s)) 5 s1 _ eq_refl) as L. cbv zeta in L.
    destruct (ring_loop t 5 h len full s1) as [r s2]. destruct r; exact L.
  Qed.
  Lemma ends_drop r ob s : let y := win_ring_drop t r s in ends (DSecond r ob) s (WOver (WTDrop (fst y))) (snd y).
  Proof.
    cbv zeta. unfold win_ring_drop, win_unmap_ring. rewrite bind_match.
    destruct (win_call RingDeallocate (unmap_view t (ptr_add t (ra_ptr r) (ra_len r))) s) as [[[]|e| | |] s1] eqn:E1;
      try (apply en_last; [cbn [wadvance]; rewrite E1; reflexivity|discriminate]).
    eapply en_more; [cbn [wadvance]; rewrite E1; reflexivity|].
    destruct (no_result (unmap_view t (ra_ptr r)) s1) as [[[]|e| | |] s2] eqn:E2;
      try (apply en_last; [cbn [wadvance]; rewrite E2; reflexivity|discriminate]).
    apply no_result_run in E2 as ([] & _ & E2); discriminate E2.
  Qed.

  (** ** the theorem *)
  Definition as_call (s s' : wtsys) (tid : Z) (c : wpcall) : Prop :=
    wt_p s' = snd (wpstep t c (wt_p s)) /\ wt_pool s' tid = None /\ forall i, i <> tid -> wt_pool s' i = wt_pool s i.
  Lemma alone_run s tid e pd p x s' : wt_pool s tid = None ->
    wtstep t e s = (WTNone, wset_pool s p tid (Some pd)) -> ends pd (g_s (wp_g p)) x s' ->
    exists n S', walone t n tid e s = (fst (done p x s'), S') /\ wt_p S' = snd (done p x s') /\ wt_pool S' tid = None /\
      forall i, i <> tid -> wt_pool S' i = wt_pool s i.
  Proof.
    intros Hp E H. set (S1 := wset_pool s p tid (Some pd)) in *.
    destruct (ends_finish tid _ _ _ _ H S1 (put_same _ _ _) eq_refl) as (n & S' & F & A & B & C).
    exists n, S'. unfold walone. rewrite E. replace (wt_pool S1 tid) with (Some pd) by (symmetry; apply put_same).
    split; [exact F|]. split; [exact A|]. split; [exact B|]. intros i Hi. rewrite (C i Hi). apply put_other, Hi.
  Qed.
  Lemma alone_over s tid e r : wt_pool s tid = None -> wtstep t e s = (r, s) ->
    walone t 0 tid e s = (r, s).
  Proof. intros Hp E. unfold walone. rewrite E, Hp. reflexivity. Qed.
  Lemma wp_same p : {| wp_g := g_set (wp_g p) (g_s (wp_g p)); wp_ring := wp_ring p |} = p.
  Proof. destruct p as [[s c tb] rg]. reflexivity. Qed.

  Lemma uninterrupted_map s tid mut o fd : wt_pool s tid = None -> options_ok t o ->
    exists n s', walone t n tid (WEMap tid mut o fd) s = (as_wtresult (fst (wpstep t (WAct (AMap mut o fd)) (wt_p s))), s') /\
      as_call s s' tid (WAct (AMap mut o fd)).
  Proof.
    intros Hp Ho. pose proof (ends_map mut false o fd (g_s (wp_g (wt_p s))) Ho) as H. cbv zeta in H.
    assert (E : wtstep t (WEMap tid mut o fd) s = (WTNone, wset_pool s (wt_p s) tid (Some (VStat mut false o fd)))).
    { cbn [wtstep]. unfold wbegin. rewrite Hp. reflexivity. }
    destruct (alone_run _ _ _ _ _ _ _ Hp E H) as (n & S' & F & A & B & C). clear H E. exists n, S'. rewrite F. clear F.
    unfold as_call. rewrite A, B. clear A B. cbn [wpstep on_maps act_thing act_step].
    destruct (wmap_if t o fd (g_s (wp_g (wt_p s)))) as [[[m|]|e| | |] s']; cbn; auto.
  Qed.
  Lemma uninterrupted_open s tid mut o path : wt_pool s tid = None -> options_ok t o ->
    exists n s', walone t n tid (WEOpen tid mut o path) s = (as_wtresult (fst (wpstep t (WAct (AOpen mut o path)) (wt_p s))), s') /\
      as_call s s' tid (WAct (AOpen mut o path)).
  Proof.
    intros Hp Ho. set (g := wp_g (wt_p s)).
    assert (E : wtstep t (WEOpen tid mut o path) s = (WTNone, wset_pool s (wt_p s) tid (Some (VOpen mut o path)))).
    { cbn [wtstep]. unfold wbegin. rewrite Hp. reflexivity. }
    assert (W : wopen_if t o path (g_s g) =
      match lift (io_call (file_open t (op_open o) path)) (g_s g) with
      | (Ret fd, s1) => match wmap_if t o fd s1 with
                        | (Ret m, s') => (Ret (m, fd), s')
                        | (r, s') => (wfailure r, with_w s' (snd (sys_close fd (n_w s'))))
                        end
      | (r, s1) => (wfailure r, s1)
      end).
    { unfold wopen_if. rewrite bind_match. destruct (lift _ (g_s g)) as [[fd|e| | |] s1]; try reflexivity.
      rewrite bind_match. unfold wclosing. destruct (wmap_if t o fd s1) as [[m|e| | |] s']; reflexivity. }
    destruct (lift (io_call (file_open t (op_open o) path)) (g_s g)) as [r s1] eqn:E1.
    assert (A1 : wadvance t (VOpen mut o path) (g_s g) = wthen (fun r => WOver (WTMap (wfailure r))) (r, s1) (fun fd => WMore (VStat mut true o fd)))
      by (cbn [wadvance]; rewrite E1; reflexivity).
    destruct r as [fd|e| | |].
    - pose proof (ends_map mut true o fd s1 Ho) as H. cbv zeta in H.
      destruct (alone_run _ _ _ _ _ _ _ Hp E (en_more _ _ _ _ _ _ A1 H)) as (n & S' & F & A & B & C). clear H E. exists n, S'. rewrite F. clear F.
      unfold as_call. rewrite A, B. clear A B. cbn [wpstep on_maps act_thing act_step]. fold g. rewrite W.
      destruct (wmap_if t o fd s1) as [[[m|]|e| | |] s']; cbn; auto.
    - destruct (alone_run _ _ _ _ _ _ _ Hp E (en_last _ _ _ _ A1 ltac:(discriminate))) as (n & S' & F & A & B & C).
      exists n, S'. rewrite F. unfold as_call. rewrite A, B. cbn [wpstep on_maps act_thing act_step]. fold g. rewrite W. cbn. auto.
    - destruct (alone_run _ _ _ _ _ _ _ Hp E (en_last _ _ _ _ A1 ltac:(discriminate))) as (n & S' & F & A & B & C).
      exists n, S'. rewrite F. unfold as_call. rewrite A, B. cbn [wpstep on_maps act_thing act_step]. fold g. rewrite W. cbn. auto.
    - destruct (alone_run _ _ _ _ _ _ _ Hp E (en_last _ _ _ _ A1 ltac:(discriminate))) as (n & S' & F & A & B & C).
      exists n, S'. rewrite F. unfold as_call. rewrite A, B. cbn [wpstep on_maps act_thing act_step]. fold g. rewrite W. cbn. auto.
    - destruct (alone_run _ _ _ _ _ _ _ Hp E (en_last _ _ _ _ A1 ltac:(discriminate))) as (n & S' & F & A & B & C).
      exists n, S'. rewrite F. unfold as_call. rewrite A, B. cbn [wpstep on_maps act_thing act_step]. fold g. rewrite W. cbn. auto.
  Qed.
  Lemma uninterrupted_alloc s tid mut o : wt_pool s tid = None ->
    exists n s', walone t n tid (WEAlloc tid mut o) s = (as_wtresult (fst (wpstep t (WAct (AAlloc mut o)) (wt_p s))), s') /\
      as_call s s' tid (WAct (AAlloc mut o)).
  Proof.
    intros Hp. set (g := wp_g (wt_p s)). destruct (nplan t o) as [[[off len] total]|e| | |] eqn:En.
    - assert (E : wtstep t (WEAlloc tid mut o) s = (WTNone, wset_pool s (wt_p s) tid (Some (NCreate mut o off len total)))).
      { cbn [wtstep]. unfold wbegin. rewrite Hp, En. reflexivity. }
      pose proof (ends_alloc mut o off len total (g_s g) En) as H. cbv zeta in H.
      destruct (alone_run _ _ _ _ _ _ _ Hp E H) as (n & S' & F & A & B & C). clear H E. exists n, S'. rewrite F. clear F.
      unfold as_call. rewrite A, B. clear A B. cbn [wpstep on_maps act_thing act_step]. fold g.
      destruct (walloc t o (g_s g)) as [[m|e| | |] s']; cbn; auto.
    - exists O, s. rewrite (alone_over s tid _ (WTMap (wfailure (A:=Z) (Err e))) Hp) by (cbn [wtstep]; unfold wbegin; rewrite Hp, En; reflexivity).
      unfold as_call. cbn [wpstep on_maps act_thing act_step]. fold g. rewrite walloc_plan, En. cbn [finish fst snd wfailure].
      split; [reflexivity|]. split; [symmetry; apply wp_same|auto].
    - exists O, s. rewrite (alone_over s tid _ (WTMap (wfailure (A:=Z) Panic)) Hp) by (cbn [wtstep]; unfold wbegin; rewrite Hp, En; reflexivity).
      unfold as_call. cbn [wpstep on_maps act_thing act_step]. fold g. rewrite walloc_plan, En. cbn [finish fst snd wfailure].
      split; [reflexivity|]. split; [symmetry; apply wp_same|auto].
    - exists O, s. rewrite (alone_over s tid _ (WTMap (wfailure (A:=Z) Fault)) Hp) by (cbn [wtstep]; unfold wbegin; rewrite Hp, En; reflexivity).
      unfold as_call. cbn [wpstep on_maps act_thing act_step]. fold g. rewrite walloc_plan, En. cbn [finish fst snd wfailure].
      split; [reflexivity|]. split; [symmetry; apply wp_same|auto].
    - exists O, s. rewrite (alone_over s tid _ (WTMap (wfailure (A:=Z) Blocked)) Hp) by (cbn [wtstep]; unfold wbegin; rewrite Hp, En; reflexivity).
      unfold as_call. cbn [wpstep on_maps act_thing act_step]. fold g. rewrite walloc_plan, En. cbn [finish fst snd wfailure].
      split; [reflexivity|]. split; [symmetry; apply wp_same|auto].
  Qed.
  Lemma uninterrupted_ring s tid (inf : bool) hint : wt_pool s tid = None ->
    let c := if inf then WInf hint else WRing hint in
    exists n s', walone t n tid (WERing tid inf hint) s = (as_wtresult (fst (wpstep t c (wt_p s))), s') /\ as_call s s' tid c.
  Proof.
    intros Hp c. set (g := wp_g (wt_p s)).
    assert (Hc : wpstep t c (wt_p s) = wp_new t (fun p l => if inf then HInf (kiring_new p l) else HRing (kring_new p l)) hint (wt_p s))
      by (unfold c; destruct inf; reflexivity).
    assert (En : (let* len := size_round (E:=error) t (size_alloc t) hint in let* full := umul t 2 len in Ret (len, full)) =
      match size_round (E:=error) t (size_alloc t) hint with
      | Ret len => match umul (E:=error) t 2 len with Ret full => Ret (len, full) | r => wfailure r end
      | r => wfailure r
      end) by (destruct (size_round (E:=error) t (size_alloc t) hint) as [l|e| | |]; cbn [obind]; try reflexivity; destruct (umul (E:=error) t 2 l); reflexivity).
    assert (W : win_ring_new t hint (g_s g) =
      match size_round (E:=error) t (size_alloc t) hint with
      | Ret len => match win_map_ring t len (g_s g) with (Ret p, s') => (Ret {| ra_ptr := p; ra_len := len |}, s') | (r, s') => (wfailure r, s') end
      | r => (wfailure r, g_s g)
      end).
    { unfold win_ring_new. rewrite bind_match. unfold wout at 1. destruct (size_round (E:=error) t (size_alloc t) hint) as [l|e| | |]; try reflexivity.
      rewrite bind_match. destruct (win_map_ring t l (g_s g)) as [[p|e| | |] s']; reflexivity. }
    assert (Bad : forall r : out error Z, (forall a, r <> Ret a) -> (let* len := size_round (E:=error) t (size_alloc t) hint in let* full := umul t 2 len in Ret (len, full)) = wfailure r ->
      win_ring_new t hint (g_s g) = (wfailure r, g_s g) ->
      exists n s', walone t n tid (WERing tid inf hint) s = (as_wtresult (fst (wpstep t c (wt_p s))), s') /\ as_call s s' tid c).
    { intros r Hr N E. exists O, s.
      rewrite (alone_over s tid _ (WTRing (wfailure r)) Hp) by (cbn [wtstep]; unfold wbegin; rewrite Hp, N; destruct r; try reflexivity; destruct (Hr _ eq_refl)).
      unfold as_call. rewrite Hc. unfold wp_new. fold g. rewrite E. destruct r; try (destruct (Hr _ eq_refl)); cbn [wfailure fst snd as_wtresult];
        (split; [reflexivity|]); (split; [symmetry; apply wp_same|auto]). }
    destruct (size_round (E:=error) t (size_alloc t) hint) as [len|e| | |] eqn:Er.
    2: apply (Bad (Err e)); [discriminate|reflexivity|exact W].
    2: apply (Bad Panic); [discriminate|reflexivity|exact W].
    2: apply (Bad Fault); [discriminate|reflexivity|exact W].
    2: apply (Bad Blocked); [discriminate|reflexivity|exact W].
    assert (Wm : forall r, umul (E:=error) t 2 len = r -> (forall a, r <> Ret a) -> win_map_ring t len (g_s g) = (wfailure r, g_s g)).
    { intros r <- Hr. unfold win_map_ring. rewrite bind_match. unfold wout. destruct (umul (E:=error) t 2 len); try reflexivity. destruct (Hr _ eq_refl). }
    cbn [obind] in Bad.
    destruct (umul (E:=error) t 2 len) as [full|e| | |] eqn:Eu.
    2: apply (Bad (Err e)); [discriminate|reflexivity|rewrite W, (Wm _ eq_refl ltac:(discriminate)); reflexivity].
    2: apply (Bad Panic); [discriminate|reflexivity|rewrite W, (Wm _ eq_refl ltac:(discriminate)); reflexivity].
    2: apply (Bad Fault); [discriminate|reflexivity|rewrite W, (Wm _ eq_refl ltac:(discriminate)); reflexivity].
    2: apply (Bad Blocked); [discriminate|reflexivity|rewrite W, (Wm _ eq_refl ltac:(discriminate)); reflexivity].
    assert (E : wtstep t (WERing tid inf hint) s = (WTNone, wset_pool s (wt_p s) tid (Some (KCreate inf len full)))).
    { cbn [wtstep]. unfold wbegin. rewrite Hp, Er. cbn [obind]. rewrite Eu. reflexivity. }
    pose proof (ends_ring inf len full (g_s g) Eu) as H. cbv zeta in H.
    destruct (alone_run _ _ _ _ _ _ _ Hp E H) as (n & S' & F & A & B & C). clear H E Bad. exists n, S'. rewrite F. clear F.
    unfold as_call. rewrite A, B, Hc. clear A B Hc. unfold wp_new. fold g. rewrite W.
    destruct (win_map_ring t len (g_s g)) as [[p|e| | |] s']; cbn; auto.
  Qed.
  Lemma uninterrupted_drop s0 s tid k : wtok t s0 s -> wt_pool s tid = None ->
    exists n s', walone t n tid (WEDrop tid k) s = (as_wtresult (fst (wpstep t (WDrop k) (wt_p s))), s') /\ as_call s s' tid (WDrop k).
  Proof.
    intros Hk Hp. set (g := wp_g (wt_p s)). destruct (wp_ring (wt_p s) k) as [h|] eqn:Er.
    - destruct (tk_ring _ _ _ Hk _ _ Er) as (_ & ob & Eg).
      assert (E : wtstep t (WEDrop tid k) s = (WTNone, wset_pool s {| wp_g := g_put g (g_s g) k None; wp_ring := put (wp_ring (wt_p s)) k None |} tid (Some (DSecond (h_alloc h) ob)))).
      { cbn [wtstep]. unfold wbegin. rewrite Hp, Er, Eg. reflexivity. }
      pose proof (ends_drop (h_alloc h) ob (g_s g)) as H. cbv zeta in H.
      destruct (alone_run _ _ _ _ _ _ _ Hp E H) as (n & S' & F & A & B & C). exists n, S'. rewrite F. unfold as_call. rewrite A, B. cbn [wpstep]. rewrite Er. fold g.
      destruct (win_ring_drop t (h_alloc h) (g_s g)) as [r s']. cbn. auto.
    - exists O, s. rewrite (alone_over s tid _ WTNone Hp) by (cbn [wtstep]; unfold wbegin; rewrite Hp, Er; reflexivity).
      unfold as_call. cbn [wpstep]. rewrite Er. cbn. auto.
  Qed.
  Theorem uninterrupted s0 s tid c e : wtreached t s0 s -> wt_pool s tid = None -> wpcall_ok t c -> wstart_of tid c = Some e ->
    exists n s', walone t n tid e s = (as_wtresult (fst (wpstep t c (wt_p s))), s') /\ wt_p s' = snd (wpstep t c (wt_p s)) /\
      wt_pool s' tid = None /\ forall i, i <> tid -> wt_pool s' i = wt_pool s i.
  Proof.
    intros Hr Hp Hc He. destruct c as [a|hint|hint|k o|k o|k]; try discriminate He.
    - destruct a; try discriminate He; injection He as <-; cbn [wpcall_ok act_ok] in Hc.
      + exact (uninterrupted_open s tid _ _ _ Hp Hc).
      + exact (uninterrupted_map s tid _ _ _ Hp Hc).
      + exact (uninterrupted_alloc s tid _ _ Hp).
    - injection He as <-. exact (uninterrupted_ring s tid false hint Hp).
    - injection He as <-. exact (uninterrupted_ring s tid true hint Hp).
    - injection He as <-. exact (uninterrupted_drop s0 s tid k (wtreached_ok t Ht _ _ Hr) Hp).
  Qed.
End Alone.
