(** Calls in progress on Windows leave nothing behind, unless the kernel
    refuses to release it. *)
From Coq Require Import Lia.
From Verif Require Import Base Spec ErrorModel SizeModel OsModel MapModel MapSpec RingMapModel RingMapSpec SizeProofs OsProofs
  MapProofs MapCreate MapOps MirrorProofs RingMapClaims MemRingModel ProcModel ProcFrame ProcProofs ProcPages
  WinModel WinSpec WinProofs WinClaims WinCalls WinMapModel WinMapSpec WinSpace WinKeep WinMapProofs WinAlloc WinThings WinHist WinLeak WinMapClaims
  WinProcModel WinProcSpec WinProcProofs WinLedgerSpec WinLedger WinThreadModel WinThreadSpec WinThreadInv WinThreadAdv WinThreadStep WinThreadLedgerSpec.

Section Ledger.
  Variable t : target.
  Hypothesis Ht : good_target t.
  Notation P := (t_page t).
  Notation G := (t_alloc t).
  Let HP : 0 < P.
  Proof. exact (pow2_pos _ (proj1 (proj2 Ht))). Qed.
  Let HG : 0 < G.
  Proof. exact (pow2_pos _ (proj1 (proj2 (proj2 Ht)))). Qed.
  Let HPG : P <= G.
  Proof. apply Ht. Qed.
  Notation item_ok := (item_ok t).
  Notation stage_ok := (stage_ok t).
  Notation bases_item := (bases_item t).

  Definition out_item (x : woutcome) : option item :=
    match x with
    | WMore pd => wpiece t pd
    | WMadeFile mut own o fd ob m => Some (tab_item (made_file mut o ob m))
    | WMadeAnon mut o ob m => Some (tab_item (made_anon t mut o ob m))
    | WMadeRing inf ob pg len => Some (tab_item (TRing {| ra_ptr := pg; ra_len := len |} ob))
    | WOver _ => None
    end.
  Definition out_resv (x : woutcome) : option Z := match x with WMore pd => wpd_resv pd | _ => None end.

  Lemma item_dec it b : bases_item it b \/ ~ bases_item it b.
  Proof.
    destruct it as [[o p [x|]]|].
    - destruct (bases_dec t x b) as [H|H]; [left; eexists _, _; split; [reflexivity|]; split; [reflexivity|exact H]|right]. intros (jt & y & [= <-] & [= <-] & B). auto.
    - right. intros (jt & y & [= <-] & E & _). discriminate E.
    - right. intros (jt & y & E & _). discriminate E.
  Qed.

  (** What one system call leaves. *)
  Definition leaves_views (s s' : win) (f : Prop) (old new : option item) : Prop := forall b, n_view s' b <> None ->
    (n_view s b <> None /\ ~ bases_item old b) \/ bases_item new b \/ (f /\ bases_item old b /\ refused_release s s').
  Definition leaves_resv (s s' : win) (old new : option Z) : Prop := forall a n, n_resv s' a = Some n ->
    (n_resv s a = Some n /\ old <> Some a) \/ new = Some a \/ (old = Some a /\ refused_release s s').
  Definition leaves (s s' : win) (f : Prop) (old new : option item) (r r' : option Z) : Prop :=
    leaves_views s s' f old new /\ leaves_resv s s' r r'.

  Lemma lv_same s s' f old new : (forall b, n_view s' b = n_view s b) -> (forall b, bases_item old b -> bases_item new b) -> leaves_views s s' f old new.
  Proof. intros E H b V. rewrite E in V. destruct (item_dec old b); auto. Qed.
  Lemma lv_new s s' f old new a n : n_view s' = put (n_view s) a (Some n) -> bases_item new a -> (forall b, bases_item old b -> bases_item new b) ->
    leaves_views s s' f old new.
  Proof.
    intros E Ha H b V. rewrite E in V. unfold put in V. destruct (Z.eqb_spec b a) as [Eb|N]; [rewrite Eb; auto|]. destruct (item_dec old b); auto.
  Qed.
  Lemma lv_gone s s' f old new a : n_view s' = put (n_view s) a None -> (forall b, bases_item old b -> b = a \/ bases_item new b) -> leaves_views s s' f old new.
  Proof.
    intros E H b V. rewrite E in V. unfold put in V. destruct (Z.eqb_spec b a) as [Eb|N]; [congruence|]. destruct (item_dec old b) as [B|B]; [|auto].
    destruct (H b B); [contradiction|auto].
  Qed.
  Lemma lv_refused s s' (f : Prop) old new : f -> (forall b, n_view s' b = n_view s b) -> refused_release s s' -> leaves_views s s' f old new.
  Proof. intros F E R b V. rewrite E in V. destruct (item_dec old b); auto. Qed.
  Lemma lr_same s s' : (forall a, n_resv s' a = n_resv s a) -> leaves_resv s s' None None.
  Proof. intros E a n H. rewrite E in H. left. split; [exact H|discriminate]. Qed.
  Lemma lv_all s s' f new : (forall b, n_view s' b = n_view s b) -> leaves_views s s' f None new.
  Proof. intros E. apply lv_same; [exact E|]. intros b (jt & y & X & _). discriminate X. Qed.
  Lemma lv_bare s s' f o p new : (forall b, n_view s' b = n_view s b) -> leaves_views s s' f (Some {| i_obj := o; i_priv := p; i_thing := None |}) new.
  Proof. intros E. apply lv_same; [exact E|]. intros b (jt & y & [= <-] & X & _). discriminate X. Qed.

  Lemma view_base s s' c acc off len ptr d l : viewed t s s' c acc off len ptr -> 0 <= d < G -> d <= len -> map_base t {| m_ptr := ptr_add t ptr d; m_len := l |} = ptr.
  Proof.
    intros [A1 A2 A3 A4 A5 _ _ _ _ _ _ _ _ _ _ _] D L. apply (range_ok_iff t) in A5 as (R1 & R2 & R3). pose proof (npages_bounds t HP len).
    assert (PA : ptr_add t ptr d = ptr + d) by (unfold ptr_add, as_usize; apply Z.mod_small; lia). rewrite PA. apply (map_base_eq t Ht); [exact A1|lia].
  Qed.
  Lemma unmap_refused a s e s' : unmap_view t a s = (Err e, s') -> refused_release s s'.
  Proof. intros E. apply unmap_view_spec in E as [L _]. exists [(WUnmap a, false)]. split; [exact L|]. exists a. right. left. reflexivity. Qed.
  Lemma free_refused a s e s' : virtual_free t a s = (Err e, s') -> refused_release s s'.
  Proof. intros E. apply free_spec in E as [L _]. exists [(WRelease a, false)]. split; [exact L|]. exists a. left. left. reflexivity. Qed.
  Lemma unmap_leaves s s' a r f old new : unmap_view t a s = (r, s') -> (f : Prop) -> (forall b, bases_item old b -> b = a \/ bases_item new b) ->
    leaves s s' f old new None None /\ match r with Ret _ | Err _ => True | _ => False end.
  Proof.
    intros E F H. pose proof E as E0. apply unmap_view_spec in E as [_ E]. destruct r as [u|e| | |]; try contradiction; (split; [|exact Logic.I]).
    - destruct E as (n & _ & V & _ & R & _). split; [exact (lv_gone _ _ _ _ _ _ V H)|apply lr_same; intros; rewrite R; reflexivity].
    - split; [|apply lr_same; intros; rewrite (wq_resv _ _ E); reflexivity]. apply lv_refused; [exact F|intros b; rewrite (wq_view _ _ E); reflexivity|exact (unmap_refused _ _ _ _ E0)].
  Qed.

  Lemma advance_leaves s0 s pd : wf (n_w s) -> space_ok t s -> tiled t s0 s -> stage_ok s0 s pd -> item_ok s (wpiece t pd) ->
    leaves s (snd (wadvance t pd s)) (wpd_unmaps pd) (wpiece t pd) (out_item (fst (wadvance t pd s))) (wpd_resv pd) (out_resv (fst (wadvance t pd s))).
  Proof.
    intros W So T St It. pose proof (word_64 t Ht) as W64. assert (Z64 : 0 <= 0 < 2 ^ 64) by lia.
    assert (Vf : forall A own fd (r : out error A), out_item (vfail own fd r) = None /\ out_resv (vfail own fd r) = None) by (intros; unfold vfail; destruct own; auto).
    assert (Wt : forall A (x : out error A * win) fail next, (forall r, out_resv (fail r) = None) -> (forall a, out_resv (next a) = None) ->
      n_view (snd x) = n_view s /\ n_resv (snd x) = n_resv s -> forall f, leaves s (snd (wthen fail x next)) f None (out_item (fst (wthen fail x next))) None (out_resv (fst (wthen fail x next)))).
    { intros A [r s'] fail next Hf Hn [Hv Hr] f. cbn [snd] in *. assert (L : forall new, leaves s s' f None new None None) by (intros new; split; [apply lv_all|apply lr_same]; intros; congruence).
      destruct r as [a|e| | |]; cbn [wthen fst snd]; rewrite ?Hn, ?Hf; apply L. }
    assert (Li : forall A (m : ST error A), n_view (snd (lift m s)) = n_view s /\ n_resv (snd (lift m s)) = n_resv s).
    { intros A m. unfold lift. destruct (m (n_w s)); split; reflexivity. }
    assert (Cl : forall h f old new, (forall b, bases_item old b -> bases_item new b) -> leaves s (snd (close_handle h s)) f old new None None).
    { intros h f old new H. split; [apply lv_same; [reflexivity|exact H]|apply lr_same; reflexivity]. }
    assert (Hn : forall op pr size, 0 <= size < 2 ^ t_bits t -> n_view (snd (handle_new t op None pr size s)) = n_view s /\ n_resv (snd (handle_new t op None pr size s)) = n_resv s).
    { intros op pr size Hs. destruct (handle_new t op None pr size s) as [r s'] eqn:E. apply win_call_run in E. assert (Hs' : 0 <= size < 2 ^ 64) by lia.
      destruct r as [h|e| | |]; try destruct E as (z & E & _); apply (create_anon_spec t _ _ _ _ _ Hs') in E as [_ E]; try contradiction; cbn [snd].
      - destruct E as (_ & _ & _ & _ & _ & _ & _ & _ & _ & C13 & C14 & _). auto.
      - split; [apply (wq_view _ _ E)|apply (wq_resv _ _ E)]. }
    destruct pd; cbn [wadvance wpiece wpd_handle wpd_resv stage_ok wpd_unmaps] in *.
    - apply Wt; try reflexivity; try (intros; apply Vf); apply Li.
    - apply Wt; try reflexivity; try (intros; apply Vf); apply Li.
    - apply Wt; try reflexivity; try (intros; apply Vf); apply Li.
    - apply Wt; try reflexivity; try (intros; apply Vf); apply Li.
    - (* VCreate *)
      destruct St as [So1 Ul]. destruct (vplan_spec t Ht o flen So1 Ul) as [E|(len & E & Hl & Hh)]; rewrite E; [apply (Wt _ (Ret tt, s) (fun _ => WOver WTNone) (fun _ => WOver WTNone)); auto|].
      destruct (handle_new t MapFileHandle (Some fd) (fst (protect_pair (op_protect o))) 0 s) as [r s'] eqn:En. apply win_call_run in En.
      destruct r as [h|e| | |]; try destruct En as (z & En & _); apply create_file_spec in En as [_ En]; try contradiction; cbn [wthen fst snd].
      + destruct En as (C1 & C2 & f & C3 & C4 & C5 & Q & C6 & C7 & C8). cbn [out_item out_resv]. split; [apply lv_all|apply lr_same]; intros; congruence.
      + destruct (Vf _ own fd (Err e : out error Z)) as [-> ->]. split; [apply lv_all|apply lr_same]; intros; [rewrite (wq_view _ _ En)|rewrite (wq_resv _ _ En)]; reflexivity.
    - (* VView *)
      destruct St as ((c & Hc & Eo & Ew) & Uo & -> & -> & Hl & Hh). pose proof (Z.mod_pos_bound (op_offset o) G HG) as D2.
      assert (Do : op_offset o mod G <= op_offset o) by (apply Z.mod_le; unfold is_usize in Uo; lia).
      unfold uadd. rewrite wrap_in by lia. destruct (It _ eq_refl) as (_ & I2 & _). cbn [i_obj] in I2. unfold is_usize in Uo.
      destruct (handle_view t h MapFileView (snd (protect_pair (op_protect o))) (op_offset o - op_offset o mod G) (len + op_offset o mod G) 0 s) as [r s'] eqn:E.
      assert (Mo : 0 <= op_offset o - op_offset o mod G < 2 ^ 64) by lia. assert (Oc : sc_obj c < w_next (n_w s)) by lia.
      destruct (view_ok t Ht s0 s s' h _ _ _ _ _ r c Mo T Hc Oc E) as (K & Es & Er & T' & V). cbn [fst snd out_item out_resv wpiece wpd_resv].
      split; [|apply lr_same, Er]. destruct r as [ptr|e| | |]; try contradiction; [|apply lv_bare; intros; rewrite (wq_view _ _ V); reflexivity].
      destruct V as (_ & _ & V). destruct (view_made t Ht s s' c (op_protect o) (op_offset o) len ptr _ V Ew eq_refl ltac:(lia) Hl) as (VV & M & Fr).
      refine (lv_new _ _ _ _ _ _ _ (vw_view _ _ _ _ _ _ _ _ V) _ _); [|intros b (jt & y & [= <-] & X & _); discriminate X].
      eexists _, _. split; [reflexivity|]. split; [reflexivity|]. cbn. symmetry. refine (view_base _ _ _ _ _ _ _ _ _ V _ _); [lia|].
      pose proof (vw_len _ _ _ _ _ _ _ _ V). destruct (Z.eqb_spec (len + op_offset o mod G) 0); lia.
    - (* VDone *)
      cbn [fst snd]. destruct r as [ptr|e| | |]; cbn [out_item out_resv]; [apply Cl; intros b (jt & y & [= <-] & [= <-] & B); eexists _, _; split; [reflexivity|]; split; [reflexivity|exact B]|..];
        (match goal with |- context [vfail own fd ?r] => destruct (Vf _ own fd r) as [-> ->] end);
        apply Cl; intros b (jt & y & [= <-] & X & _); discriminate X.
    - (* VClose *) split; [apply lv_all|apply lr_same]; reflexivity.
    - (* NCreate *)
      destruct St as (-> & -> & Hl & Hh). pose proof (Z.mod_pos_bound (op_offset o) P HP) as D2. apply Wt; try reflexivity. apply Hn; lia.
    - (* NView *)
      destruct St as (-> & -> & Hl & Hh & Nz & (c & Hc & Eo & Ew) & Sz & Dz). pose proof (Z.mod_pos_bound (op_offset o) P HP) as D2.
      destruct (It _ eq_refl) as (_ & I2 & _). cbn [i_obj] in I2. set (off := op_offset o mod P) in *.
      destruct (handle_view t h MapAnonymousView (snd (protect_pair (op_protect o))) 0 (off + len) 0 s) as [r s'] eqn:E.
      destruct (view_ok t Ht s0 s s' h _ _ _ _ _ r c Z64 T Hc ltac:(lia) E) as (K & Es & Er & T' & V). cbn [fst snd out_item out_resv wpiece wpd_resv].
      split; [|apply lr_same, Er]. destruct r as [ptr|e| | |]; try contradiction; [|apply lv_bare; intros; rewrite (wq_view _ _ V); reflexivity].
      destruct V as (_ & _ & V). rewrite (proj2 (Z.eqb_neq (off + len) 0) Nz) in V.
      refine (lv_new _ _ _ _ _ _ _ (vw_view _ _ _ _ _ _ _ _ V) _ _); [|intros b (jt & y & [= <-] & X & _); discriminate X].
      eexists _, _. split; [reflexivity|]. split; [reflexivity|]. cbn. symmetry. refine (view_base _ _ _ _ _ _ _ _ _ V _ _); lia.
    - (* NDone *)
      cbn [fst snd]. destruct r as [ptr|e| | |]; cbn [out_item out_resv]; (apply Cl; intros b (jt & y & [= <-] & X & B); first [discriminate X|injection X as <-; eexists _, _; split; [reflexivity|]; split; [reflexivity|exact B]]).
    - (* KCreate *)
      destruct St as (Ul & Lg & Uf & Lz). apply Wt; try reflexivity. apply Hn; exact Uf.
    - (* KReserve *)
      destruct (win_call RingAllocate (virtual_alloc t full) s) as [r s'] eqn:E. apply win_call_run in E.
      destruct r as [pg|e| | |]; try destruct E as (z & E & _); apply alloc_spec in E as (_ & R & S1 & E); try contradiction; cbn [wthen fst snd wfailure out_item out_resv wpiece wpd_resv].
      + destruct E as (A1 & A2 & A3 & A4 & A0 & A5 & _). split; [apply lv_bare; intros; rewrite A4; reflexivity|]. intros a n Ha. rewrite A5 in Ha.
        unfold put in Ha. destruct (Z.eqb_spec a pg) as [->|N]; [auto|]. left. split; [exact Ha|discriminate].
      + split; [apply lv_bare|apply lr_same]; intros; [rewrite (wq_view _ _ E)|rewrite (wq_resv _ _ E)]; reflexivity.
    - (* KRelease *)
      destruct (no_result (virtual_free t pg) s) as [r s'] eqn:E. apply no_result_run in E as (r1 & E & Er). pose proof E as E0. apply free_spec in E as (_ & R & S1 & E).
      assert (L : leaves s s' False (Some {| i_obj := ob; i_priv := true; i_thing := None |}) (Some {| i_obj := ob; i_priv := true; i_thing := None |}) (Some pg) None).
      { destruct r1 as [u|e| | |]; try contradiction.
        - destruct E as (n & B1 & B2 & B3 & _). split; [apply lv_bare; intros; rewrite B3; reflexivity|]. intros a m Ha. rewrite B2 in Ha. unfold put in Ha.
          destruct (Z.eqb_spec a pg) as [->|N]; [discriminate Ha|]. left. split; [exact Ha|congruence].
        - split; [apply lv_bare; intros; rewrite (wq_view _ _ E); reflexivity|]. intros a m Ha. rewrite (wq_resv _ _ E) in Ha.
          destruct (Z.eq_dec pg a) as [->|N]; [right; right; split; [reflexivity|exact (free_refused _ _ _ _ E0)]|left; split; [exact Ha|congruence]]. }
      destruct r1 as [u|e| | |]; try contradiction; subst r; exact L.
    - (* KFirst *)
      destruct St as (Kf & Lp). destruct (It _ eq_refl) as (_ & I2 & I3). cbn [i_obj i_priv] in I2, I3. pose proof Kf as (Ul & Lg & Lz & Uf & (c & C1 & C2 & C3 & C4) & Dz).
      destruct (handle_view t h RingPrimary MapReadWrite 0 len pg s) as [r s'] eqn:E.
      destruct (view_ok t Ht s0 s s' h _ _ _ _ _ r c Z64 T C1 ltac:(lia) E) as (K & Es & Er & T' & V). destruct r as [a|e| | |]; try contradiction; cbn [fst snd out_item out_resv wpiece wpd_resv].
      + destruct V as (_ & _ & V). rewrite (proj2 (Z.eqb_neq len 0) Lz) in V. split; [|apply lr_same, Er].
        refine (lv_new _ _ _ _ _ _ _ (vw_view _ _ _ _ _ _ _ _ V) _ _); [|intros b (jt & y & [= <-] & X & _); discriminate X].
        eexists _, _. split; [reflexivity|]. split; [reflexivity|]. cbn. symmetry. apply (half_base t Ht), V.
      + unfold kretry. destruct more; cbn [out_item out_resv wpd_resv]; (split; [apply lv_bare; intros; rewrite (wq_view _ _ V); reflexivity|apply lr_same, Er]).
    - (* KSecond *)
      destruct St as (Kf & Hv & Ag). destruct (It _ eq_refl) as (I1 & I2 & I3). cbn [i_obj i_priv i_thing] in I1, I2, I3. pose proof Kf as (Ul & Lg & Lz & Uf & (c & C1 & C2 & C3 & C4) & Dz).
      destruct (I1 _ eq_refl) as (Th & _ & _). pose proof (half_base t Ht pg len Ag) as Hb. rewrite Hb in Hv. unfold is_usize in Ul.
      pose proof Th as Mk. cbn in Mk. pose proof (mo_base _ _ _ Mk) as Mb. pose proof (mo_high _ _ _ Mk) as Mh. cbn [v_map m_ptr m_len half] in Mb, Mh. rewrite Hb in Mb.
      assert (Ep : ptr_add t pg len = pg + len) by (unfold ptr_add, as_usize; apply Z.mod_small; lia). rewrite Ep.
      destruct (handle_view t h RingSecondary MapReadWrite 0 len (pg + len) s) as [r s'] eqn:E.
      destruct (view_ok t Ht s0 s s' h _ _ _ _ _ r c Z64 T C1 ltac:(lia) E) as (K & Es & Er & T' & V). destruct r as [a|e| | |]; try contradiction; cbn [fst snd out_item out_resv wpiece wpd_resv].
      + destruct V as (Ea & _ & V). specialize (Ea ltac:(lia)). subst a. split; [|apply lr_same, Er].
        refine (lv_new _ _ _ _ _ _ _ (vw_view _ _ _ _ _ _ _ _ V) _ _).
        * eexists _, _. split; [reflexivity|]. split; [reflexivity|]. right. reflexivity.
        * intros b (jt & y & [= <-] & [= <-] & B). cbn in B. rewrite Hb in B. eexists _, _. split; [reflexivity|]. split; [reflexivity|]. left. exact B.
      + split; [|apply lr_same, Er]. apply lv_same; auto. intros; rewrite (wq_view _ _ V); reflexivity.
    - (* KUndo *)
      destruct St as (Kf & Hv & Ag). pose proof (half_base t Ht pg len Ag) as Hb.
      destruct (no_result (unmap_view t pg) s) as [r s'] eqn:E. apply no_result_run in E as (r1 & E & Er).
      assert (Hh : forall b, bases_item (Some {| i_obj := ob; i_priv := true; i_thing := Some (half pg len ob) |}) b -> b = pg \/ bases_item (Some {| i_obj := ob; i_priv := true; i_thing := None |}) b).
      { intros b (jt & y & [= <-] & [= <-] & B). cbn in B. left. congruence. }
      destruct (unmap_leaves s s' pg r1 True _ _ E Logic.I Hh) as [L Hr]. destruct r1 as [u|e'| | |]; try contradiction; subst r; unfold kretry; destruct more; exact L.
    - (* KDone *)
      cbn [fst snd]. destruct r as [ptr|e| | |]; cbn [out_item out_resv]; (apply Cl; intros b (jt & y & [= <-] & X & B); first [discriminate X|injection X as <-; eexists _, _; split; [reflexivity|]; split; [reflexivity|exact B]]).
    - (* DSecond *)
      destruct (It _ eq_refl) as (I1 & I2 & I3). cbn [i_obj i_priv i_thing] in I1, I2, I3. destruct (I1 _ eq_refl) as ((n & Rk) & _).
      pose proof (ro_n _ _ _ _ _ Rk). pose proof (ro_len _ _ _ _ _ Rk) as Rl. pose proof (ro_low _ _ _ _ _ Rk). pose proof (ro_high _ _ _ _ _ Rk).
      assert (Hl : 0 < ra_len r) by nia.
      assert (Ep : ptr_add t (ra_ptr r) (ra_len r) = ra_ptr r + ra_len r) by (unfold ptr_add, as_usize; apply Z.mod_small; lia). rewrite Ep.
      destruct (win_call RingDeallocate (unmap_view t (ra_ptr r + ra_len r)) s) as [x s'] eqn:E. apply win_call_run in E.
      destruct (so_view _ _ So _ _ (proj1 (ro_view _ _ _ _ _ Rk))) as (_ & Ag & _). pose proof (half_base t Ht (ra_ptr r) (ra_len r) Ag) as Hb.
      assert (Hh : forall b, bases_item (Some {| i_obj := ob; i_priv := true; i_thing := Some (TRing r ob) |}) b -> b = ra_ptr r + ra_len r \/
        bases_item (Some {| i_obj := ob; i_priv := true; i_thing := Some (half (ra_ptr r) (ra_len r) ob) |}) b).
      { intros b (jt & y & [= <-] & [= <-] & [-> | ->]); [right|left; reflexivity]. eexists _, _. split; [reflexivity|]. split; [reflexivity|]. cbn. symmetry. exact Hb. }
      destruct x as [u|e| | |]; try destruct E as (z & E & _); cbn [fst snd out_item out_resv wpiece wpd_resv];
        try (destruct (unmap_leaves s s' _ _ True _ _ E Logic.I Hh) as [L Hr]; first [exact L|contradiction]).
      pose proof (unmap_refused _ _ _ _ E) as Rf. apply unmap_view_spec in E as [_ E]. split; [|apply lr_same; intros; rewrite (wq_resv _ _ E); reflexivity].
      apply lv_refused; auto. intros; rewrite (wq_view _ _ E); reflexivity.
    - (* DFirst *)
      destruct (no_result (unmap_view t (ra_ptr r)) s) as [x s'] eqn:E. apply no_result_run in E as (r1 & E & Er).
      assert (Hh : forall b, bases_item (Some {| i_obj := ob; i_priv := true; i_thing := Some (half (ra_ptr r) (ra_len r) ob) |}) b -> b = ra_ptr r \/ bases_item None b).
      { intros b (jt & y & [= <-] & [= <-] & B). cbn in B. left. congruence. }
      destruct (unmap_leaves s s' _ r1 True _ _ E Logic.I Hh) as [L Hr]. destruct r1 as [u|e'| | |]; try contradiction; subst x; exact L.
  Qed.

  (** ** Who answers for what *)
  Lemma view_item s0 s pd a : stage_ok s0 s pd -> (wpd_view t pd a <-> bases_item (wpiece t pd) a).
  Proof.
    intros St. assert (None_ : forall i, i_thing i = None -> (False <-> bases_item (Some i) a)).
    { intros i E. split; [intros []|]. intros (jt & y & [= <-] & X & _). congruence. }
    assert (No : False <-> bases_item None a) by (split; [intros []|intros (jt & y & X & _); discriminate X]).
    assert (Yes : forall i x (Q : Prop), i_thing i = Some x -> (Q <-> bases_of t x a) -> (Q <-> bases_item (Some i) a)).
    { intros i x Q E [H1 H2]. split; [intros q; exists i, x; auto|]. intros (jt & y & [= <-] & X & B). apply H2. congruence. }
    destruct pd; cbn [wpd_view wpiece WinThreadInv.stage_ok] in *; try exact No; try (apply None_; reflexivity);
      try (destruct r as [ptr|e| | |]; try (apply None_; reflexivity); eapply Yes; [reflexivity|]; cbn; tauto).
    - eapply Yes; [reflexivity|]. cbn. rewrite (half_base t Ht) by apply St. tauto.
    - eapply Yes; [reflexivity|]. cbn. rewrite (half_base t Ht) by apply St. tauto.
    - eapply Yes; [reflexivity|]. cbn. tauto.
    - eapply Yes; [reflexivity|]. cbn. rewrite St. tauto.
  Qed.
  Notation famof s := (fam t (wp_g (wt_p s)) (wt_pool s)).
  Lemma holds_item s0 s z a : wtok t s0 s -> (wholds t s z a <-> bases_item (famof s z) a).
  Proof.
    intros [K _]. destruct z as [k|tid]; cbn [wholds fam pitem].
    - split.
      + intros (x & E & B). rewrite E. exists (tab_item x), x. auto.
      + intros (jt & y & E & Ey & B). destruct (g_tab (wp_g (wt_p s)) k) as [x|] eqn:Ek; cbn in E; [|discriminate E]. injection E as <-. injection Ey as <-. eauto.
    - split.
      + intros (pd & E & B). rewrite E. cbn. apply (view_item s0 (wkern s)); [exact (gk_stage _ _ _ _ K _ _ E)|exact B].
      + intros B. destruct (wt_pool s tid) as [pd|] eqn:E; [|destruct B as (jt & y & X & _); discriminate X]. exists pd. split; [reflexivity|].
        apply (view_item s0 (wkern s)) in B; [exact B|exact (gk_stage _ _ _ _ K _ _ E)].
  Qed.
  Lemma resv_of pd a : wpd_reserved pd a <-> wpd_resv pd = Some a.
  Proof. destruct pd; cbn; split; intros H; try contradiction; try discriminate H; congruence. Qed.

  Definition looked (s : wtsys) (a : Z) : Prop := exists z, wholds t s z a.
  Definition claimed (s : wtsys) (a : Z) : Prop := exists tid pd, wt_pool s tid = Some pd /\ wpd_reserved pd a.
  Lemma loose_alt s a : loose_view t s a <-> n_view (wkern s) a <> None /\ ~ looked s a.
  Proof. unfold loose_view, looked. split; intros [H1 H2]; (split; [exact H1|]); [intros [z H]; exact (H2 z H)|intros z H; eauto]. Qed.
  Lemma loose_resv_alt s0 s a : loose_resv s0 s a <-> n_resv s0 a = None /\ n_resv (wkern s) a <> None /\ ~ claimed s a.
  Proof.
    unfold loose_resv, claimed. split; intros (H1 & H2 & H3); (split; [exact H1|]); (split; [exact H2|]); [intros (i & pd & E & H); exact (H3 i pd E H)|intros i pd E H; eauto].
  Qed.

  (** Calls that begin. *)
  Lemma begin_same s0 s e : wtok t s0 s -> match e with WECall _ | WEGo _ => False | _ => True end ->
    wkern (snd (wtstep t e s)) = wkern s /\ (forall a, looked (snd (wtstep t e s)) a <-> looked s a) /\ (forall a, claimed (snd (wtstep t e s)) a <-> claimed s a).
  Proof.
    intros [K Rg] Ne. assert (Id : wkern s = wkern s /\ (forall a, looked s a <-> looked s a) /\ (forall a, claimed s a <-> claimed s a)) by (split; [reflexivity|]; split; reflexivity).
    assert (New : forall tid pd, wt_pool s tid = None -> (forall a, ~ wpd_view t pd a) -> (forall a, ~ wpd_reserved pd a) ->
      let s' := wset_pool s (wt_p s) tid (Some pd) in wkern s' = wkern s /\ (forall a, looked s' a <-> looked s a) /\ (forall a, claimed s' a <-> claimed s a)).
    { intros tid pd Hp Nv Nr s'. split; [reflexivity|]. split; intros a; split.
      - intros [[k|i] H]; [exists (WThing k); exact H|]. destruct H as (pe & E & H). cbn in E. unfold put in E. destruct (Z.eqb_spec i tid) as [->|N]; [injection E as <-; destruct (Nv a H)|].
        exists (WThread i), pe. auto.
      - intros [[k|i] H]; [exists (WThing k); exact H|]. destruct H as (pe & E & H). exists (WThread i), pe. cbn. rewrite put_other by congruence. auto.
      - intros (i & pe & E & H). cbn in E. unfold put in E. destruct (Z.eqb_spec i tid) as [->|N]; [injection E as <-; destruct (Nr a H)|]. exists i, pe. auto.
      - intros (i & pe & E & H). exists i, pe. cbn. rewrite put_other by congruence. auto. }
    destruct e as [c|tid mut o path|tid mut o fd|tid mut o|tid inf hint|tid k|tid]; try contradiction; cbn [wtstep]; unfold wbegin;
      (destruct (wt_pool s tid) as [pd0|] eqn:Hp; [exact Id|]).
    - apply New; auto.
    - apply New; auto.
    - destruct (nplan t o) as [[[off len] total]|er| | |]; try exact Id. apply New; auto.
    - destruct (let* len := size_round (E:=error) t (size_alloc t) hint in let* full := umul t 2 len in Ret (len, full)) as [[len full]|er| | |]; try exact Id. apply New; auto.
    - destruct (wp_ring (wt_p s) k) as [h|] eqn:Hk; [|exact Id]. destruct (Rg k h Hk) as (F & ob & Ho). rewrite Ho. cbn [snd]. split; [reflexivity|]. split; intros a; split.
      + intros [[j|i] H].
        * destruct H as (x & E & B). cbn in E. unfold put in E. destruct (Z.eqb_spec j k); [discriminate E|]. exists (WThing j), x. auto.
        * destruct H as (pe & E & H). cbn in E. unfold put in E. destruct (Z.eqb_spec i tid) as [->|N]; [|exists (WThread i), pe; auto].
          injection E as <-. exists (WThing k), (TRing (h_alloc h) ob). split; [exact Ho|exact H].
      + intros [[j|i] H].
        * destruct H as (x & E & B). destruct (Z.eq_dec j k) as [->|N].
          -- assert (x = TRing (h_alloc h) ob) by congruence. subst x. exists (WThread tid), (DSecond (h_alloc h) ob). cbn. rewrite put_same. split; [reflexivity|exact B].
          -- exists (WThing j), x. cbn. rewrite put_other by exact N. auto.
        * destruct H as (pe & E & H). exists (WThread i), pe. cbn. rewrite put_other by congruence. auto.
      + intros (i & pe & E & H). cbn in E. unfold put in E. destruct (Z.eqb_spec i tid) as [->|N]; [injection E as <-; destruct H|]. exists i, pe. auto.
      + intros (i & pe & E & H). exists i, pe. cbn. rewrite put_other by congruence. auto.
  Qed.

  (** The next system call of a thread. *)
  Lemma go_items s0 s tid pd : wtok t s0 s -> wt_pool s tid = Some pd ->
    let x := wadvance t pd (wkern s) in let s' := snd (wtstep t (WEGo tid) s) in
    wkern s' = snd x /\
    (forall a, looked s' a <-> (exists z, z <> WThread tid /\ wholds t s z a) \/ bases_item (out_item (fst x)) a) /\
    (forall a, claimed s' a <-> (exists i pe, i <> tid /\ wt_pool s i = Some pe /\ wpd_reserved pe a) \/ out_resv (fst x) = Some a).
  Proof.
    intros W Hp. cbv zeta. pose proof (event_ok t Ht s0 s (WEGo tid) W Logic.I) as W'. pose proof W as [K _]. pose proof (gk_keys _ _ _ _ K) as Ks.
    assert (Nk : g_tab (wp_g (wt_p s)) (g_cnt (wp_g (wt_p s))) = None).
    { destruct (g_tab (wp_g (wt_p s)) (g_cnt (wp_g (wt_p s)))) as [x|] eqn:E; [|reflexivity]. pose proof (Ks _ _ E). lia. }
    cbn [wtstep] in *. rewrite Hp in *. unfold wgo in *.
    assert (Lk : forall s' a, wtok t s0 s' -> (looked s' a <-> exists z, bases_item (famof s' z) a)).
    { intros s' a V. split; intros [z H]; exists z; apply (holds_item s0 s' z a V); exact H. }
    destruct (wadvance t pd (wkern s)) as [x s1]. cbn [fst snd].
    assert (Claim : forall s' y, wt_pool s' = put (wt_pool s) tid y -> forall a, claimed s' a <->
      (exists i pe, i <> tid /\ wt_pool s i = Some pe /\ wpd_reserved pe a) \/ (exists pe, y = Some pe /\ wpd_reserved pe a)).
    { intros s' y E a. unfold claimed. rewrite E. split.
      - intros (i & pe & H1 & H2). unfold put in H1. destruct (Z.eqb_spec i tid) as [->|N]; [right; eauto|left; eauto 6].
      - intros [(i & pe & N & H1 & H2)|(pe & -> & H)]; [exists i, pe; rewrite put_other by exact N; auto|exists tid, pe; rewrite put_same; auto]. }
    assert (Made : forall s' y, wtok t s0 s' -> wt_pool s' = put (wt_pool s) tid None -> g_tab (wp_g (wt_p s')) = put (g_tab (wp_g (wt_p s))) (g_cnt (wp_g (wt_p s))) (Some y) ->
      forall a, looked s' a <-> (exists z, z <> WThread tid /\ wholds t s z a) \/ bases_item (Some (tab_item y)) a).
    { intros s' y V E1 E2 a. split.
      - intros [[k|i] H].
        + destruct H as (v & H & B). rewrite E2 in H. unfold put in H. destruct (Z.eqb_spec k (g_cnt (wp_g (wt_p s)))) as [->|N].
          * injection H as <-. right. exists (tab_item y), y. auto.
          * left. exists (WThing k). split; [congruence|]. exists v. auto.
        + destruct H as (pe & H & B). rewrite E1 in H. unfold put in H. destruct (Z.eqb_spec i tid) as [->|N]; [discriminate H|].
          left. exists (WThread i). split; [congruence|]. exists pe. auto.
      - intros [([k|i] & N & H)|(jt & v & [= <-] & [= <-] & B)].
        + destruct H as (v & H & B). exists (WThing k), v. rewrite E2, put_other by congruence. auto.
        + destruct H as (pe & H & B). exists (WThread i), pe. rewrite E1, put_other by congruence. auto.
        + exists (WThing (g_cnt (wp_g (wt_p s)))), y. rewrite E2, put_same. auto. }
    assert (Kept : forall s' y, wtok t s0 s' -> wt_pool s' = put (wt_pool s) tid y -> g_tab (wp_g (wt_p s')) = g_tab (wp_g (wt_p s)) ->
      forall a, looked s' a <-> (exists z, z <> WThread tid /\ wholds t s z a) \/ bases_item (pitem t y) a).
    { intros s' y V E1 E2 a. split.
      - intros [[k|i] H].
        + left. exists (WThing k). split; [congruence|]. destruct H as (v & H & B). rewrite E2 in H. exists v. auto.
        + destruct (Z.eq_dec i tid) as [->|N].
          * right. apply (holds_item s0 s' (WThread tid) a V) in H. cbn [fam] in H. rewrite E1, put_same in H. exact H.
          * left. exists (WThread i). split; [congruence|]. destruct H as (pe & H & B). rewrite E1, put_other in H by exact N. exists pe. auto.
      - intros [([k|i] & N & H)|B].
        + destruct H as (v & H & B). exists (WThing k), v. rewrite E2. auto.
        + destruct H as (pe & H & B). exists (WThread i), pe. rewrite E1, put_other by congruence. auto.
        + exists (WThread tid). apply (holds_item s0 s' (WThread tid) a V). cbn [fam]. rewrite E1, put_same. exact B. }
    destruct x as [pd'|mut own o fd ob m|mut o ob m|inf ob pg len|r]; cbn [snd out_item out_resv] in *; (split; [reflexivity|]); split; intros a.
    - rewrite (Kept _ (Some pd') W' eq_refl eq_refl). reflexivity.
    - match goal with |- claimed ?v _ <-> _ => rewrite (Claim v (Some pd') eq_refl) end. split; (intros [H|H]; [left; exact H|right]).
      + destruct H as (pe & [= <-] & H). apply resv_of, H.
      + exists pd'. split; [reflexivity|apply resv_of, H].
    - apply Made; auto.
    - match goal with |- claimed ?v _ <-> _ => rewrite (Claim v None eq_refl) end. split; (intros [H|H]; [left; exact H|]); [destruct H as (pe & H & _)|]; discriminate H.
    - apply Made; auto.
    - match goal with |- claimed ?v _ <-> _ => rewrite (Claim v None eq_refl) end. split; (intros [H|H]; [left; exact H|]); [destruct H as (pe & H & _)|]; discriminate H.
    - apply Made; auto.
    - match goal with |- claimed ?v _ <-> _ => rewrite (Claim v None eq_refl) end. split; (intros [H|H]; [left; exact H|]); [destruct H as (pe & H & _)|]; discriminate H.
    - rewrite (Kept _ None W' eq_refl eq_refl). reflexivity.
    - match goal with |- claimed ?v _ <-> _ => rewrite (Claim v None eq_refl) end. split; (intros [H|H]; [left; exact H|]); [destruct H as (pe & H & _)|]; discriminate H.
  Qed.

  (** ** Nothing that was left behind is touched again *)
  Lemma out_moved s0 s s' pd x : good_outcome t s0 s s' pd x -> exists h, moved t s0 s s' (wpiece t pd) (out_item x) (wpd_handle pd) h (wpd_resv pd) (out_resv x).
  Proof. destruct x; cbn [good_outcome out_item out_resv]; intros H; [destruct H as [H _]| |destruct H as [H _]|destruct H as [H _]|]; eexists; exact H. Qed.
  Lemma go_moved s0 s tid pd : wtok t s0 s -> wt_pool s tid = Some pd ->
    exists h, moved t s0 (wkern s) (snd (wadvance t pd (wkern s))) (wpiece t pd) (out_item (fst (wadvance t pd (wkern s)))) (wpd_handle pd) h
      (wpd_resv pd) (out_resv (fst (wadvance t pd (wkern s)))).
  Proof.
    intros [K _] Hp. pose proof (gk_fam _ _ _ _ K) as [W So _ _ _ _]. apply out_moved.
    exact (wadvance_ok t Ht s0 _ pd W So (gk_tiled _ _ _ _ K) (gk_stage _ _ _ _ K _ _ Hp) (gok_item t _ _ _ _ _ K Hp)).
  Qed.
  Lemma call_step c s x p' : wpstep t c (wt_p s) = (x, p') -> snd (wtstep t (WECall c) s) = {| wt_p := p'; wt_pool := wt_pool s |}.
  Proof. cbn [wtstep]. intros ->. reflexivity. Qed.
  Lemma view_kept s0 s e a : wtok t s0 s -> wev_ok t e -> loose_view t s a ->
    loose_view t (snd (wtstep t e s)) a /\ n_view (wkern (snd (wtstep t e s))) a = n_view (wkern s) a.
  Proof.
    intros K He L. assert (Be : match e with WECall _ | WEGo _ => False | _ => True end ->
      loose_view t (snd (wtstep t e s)) a /\ n_view (wkern (snd (wtstep t e s))) a = n_view (wkern s) a).
    { intros B. destruct (begin_same s0 s e K B) as (E & H & _). apply loose_alt in L. rewrite loose_alt, E, H. auto. }
    destruct e as [c|tid mut o path|tid mut o fd|tid mut o|tid inf hint|tid k|tid]; try (apply Be; exact Logic.I); clear Be.
    - destruct He as [Hc Sg]. assert (O : orphan t (wp_g (wt_p s)) a).
      { destruct L as [V N]. split; [exact V|]. intros k x Hk Hb. apply (N (WThing k)). exists x. auto. }
      destruct (orphans_ok t Ht c (wt_p s) a (wtok_wpok t s0 s K) Hc O) as [[O1 O2] E]. destruct (wpstep t c (wt_p s)) as [x p'] eqn:Es.
      rewrite (call_step _ _ _ _ Es). cbn [wt_p snd] in *. split; [|exact E]. split; [exact O1|]. intros [k|i] H.
      + destruct H as (y & H & B). exact (O2 k y H B).
      + exact (proj2 L (WThread i) H).
    - destruct (wt_pool s tid) as [pd|] eqn:Hp; [|cbn [wtstep]; rewrite Hp; auto]. destruct (go_items s0 s tid pd K Hp) as (E & Lk & _).
      destruct (go_moved s0 s tid pd K Hp) as (h & M). rewrite loose_alt, Lk, E. apply loose_alt in L as [V N].
      destruct (n_view (wkern s) a) as [n|] eqn:Va; [|contradiction]. destruct (mv_ev _ _ _ _ _ _ _ _ _ _ M) as (X & Ev & HX).
      assert (No : forall b, bases_item (wpiece t pd) b -> looked s b).
      { intros b B. exists (WThread tid). apply (holds_item s0 s (WThread tid) b K). cbn [fam]. rewrite Hp. exact B. }
      destruct (ev_view _ _ _ _ _ _ Ev a n Va) as [Xa|Va']; [destruct (N (No a (HX a Xa)))|]. rewrite Va'. split; [split; [discriminate|]|reflexivity].
      intros [(z & _ & H)|(jt & y & Ej & Ey & B)]; [apply N; exists z; exact H|].
      destruct (mv_item _ _ _ _ _ _ _ _ _ _ M jt Ej) as (H & _). destruct (H y Ey) as (_ & _ & _ & Fr). destruct (Fr a B) as [F|F]; [congruence|exact (N (No a F))].
  Qed.
  Lemma view_left s0 s e a : wtok t s0 s -> wev_ok t e -> loose_view t (snd (wtstep t e s)) a -> loose_view t s a \/ cut_loose t e s (snd (wtstep t e s)) a.
  Proof.
    intros K He L. assert (Be : match e with WECall _ | WEGo _ => False | _ => True end -> loose_view t s a).
    { intros B. destruct (begin_same s0 s e K B) as (E & H & _). apply loose_alt in L. rewrite E, H in L. apply loose_alt, L. }
    destruct e as [c|tid mut o path|tid mut o fd|tid mut o|tid inf hint|tid k|tid]; try (left; apply Be; exact Logic.I); clear Be.
    - destruct He as [Hc Sg]. pose proof (ex_view _ _ _ _ (explained_ok t Ht c (wt_p s) (wtok_wpok t s0 s K) Hc) a) as X.
      destruct (wpstep t c (wt_p s)) as [x p'] eqn:Es. unfold cut_loose. rewrite (call_step _ _ _ _ Es) in *. cbn [wt_p snd] in *. destruct L as [V N]. cbn [wt_p] in V.
      destruct X as [[V0 O]|[F|F]].
      + split; [exact V|]. intros k y Hk B. apply (N (WThing k)). exists y. auto.
      + left. split; [exact V0|]. intros [k|i] H; [destruct H as (y & H & B); exact (O k y H B)|exact (N (WThread i) H)].
      + right. left. destruct F as (k & y & [-> | ->] & Hk & B & Y); [discriminate Sg|]. exists k, y. auto.
      + destruct F as (hint & [-> | ->] & _); discriminate Sg.
    - destruct (wt_pool s tid) as [pd|] eqn:Hp; [|cbn [wtstep] in L; rewrite Hp in L; auto]. unfold cut_loose. destruct (go_items s0 s tid pd K Hp) as (E & Lk & _).
      pose proof K as [Kg _]. pose proof (gk_fam _ _ _ _ Kg) as [W So _ _ _ _]. apply loose_alt in L as [V N]. rewrite Lk in N. rewrite E in *.
      destruct (advance_leaves s0 _ pd W So (gk_tiled _ _ _ _ Kg) (gk_stage _ _ _ _ Kg _ _ Hp) (gok_item t _ _ _ _ _ Kg Hp)) as [Lv _].
      destruct (Lv a V) as [[V0 Nb]|[B|(F & B & R)]].
      + left. apply loose_alt. split; [exact V0|]. intros [z H]. destruct (owner_dec z (WThread tid)) as [->|Nz]; [|apply N; left; eauto].
        apply (holds_item s0 s (WThread tid) a K) in H. cbn [fam] in H. rewrite Hp in H. exact (Nb H).
      + destruct N. right. exact B.
      + right. right. exists tid, pd. split; [reflexivity|]. split; [exact Hp|]. split; [exact F|]. split; [|exact R].
        apply (view_item s0 (wkern s)); [exact (gk_stage _ _ _ _ Kg _ _ Hp)|exact B].
  Qed.
  Lemma resv_kept s0 s e a : wtok t s0 s -> wev_ok t e -> loose_resv s0 s a ->
    loose_resv s0 (snd (wtstep t e s)) a /\ n_resv (wkern (snd (wtstep t e s))) a = n_resv (wkern s) a.
  Proof.
    intros K He L. assert (Be : match e with WECall _ | WEGo _ => False | _ => True end ->
      loose_resv s0 (snd (wtstep t e s)) a /\ n_resv (wkern (snd (wtstep t e s))) a = n_resv (wkern s) a).
    { intros B. destruct (begin_same s0 s e K B) as (E & _ & H). apply loose_resv_alt in L. rewrite loose_resv_alt, E, H. auto. }
    destruct e as [c|tid mut o path|tid mut o fd|tid mut o|tid inf hint|tid k|tid]; try (apply Be; exact Logic.I); clear Be.
    - destruct He as [Hc Sg]. destruct L as (L0 & L1 & L2). destruct (n_resv (wkern s) a) as [n|] eqn:Ra; [|contradiction].
      destruct (wpstep_traced t Ht c _ (wtok_wpok t s0 s K) Hc) as (hs & T). pose proof (goes_run t s0 hs (wp_g (wt_p s)) (gk_tiled _ _ _ _ (tk_g _ _ _ K))) as [_ Rk].
      rewrite <- (tr_run _ _ _ _ _ T) in Rk. destruct (wpstep t c (wt_p s)) as [x p'] eqn:Es. rewrite (call_step _ _ _ _ Es). cbn [wt_p snd] in *. pose proof (Rk a n Ra) as E.
      split; [|exact E]. split; [exact L0|]. cbn [wt_p wt_pool]. rewrite E. split; [discriminate|exact L2].
    - destruct (wt_pool s tid) as [pd|] eqn:Hp; [|cbn [wtstep]; rewrite Hp; auto]. destruct (go_items s0 s tid pd K Hp) as (E & _ & Ck).
      destruct (go_moved s0 s tid pd K Hp) as (h & M). rewrite loose_resv_alt, Ck, E. apply loose_resv_alt in L as (L0 & L1 & L2).
      destruct (n_resv (wkern s) a) as [n|] eqn:Ra; [|contradiction].
      assert (No : wpd_resv pd <> Some a). { intros H. apply L2. exists tid, pd. split; [exact Hp|apply resv_of, H]. }
      destruct (mv_kept _ _ _ _ _ _ _ _ _ _ M a n Ra) as [H|H]; [contradiction|]. rewrite H. split; [|reflexivity]. split; [exact L0|]. split; [discriminate|].
      intros [(i & pe & Ni & Hi & Hr)|H']; [apply L2; exists i, pe; auto|]. destruct (mv_resv _ _ _ _ _ _ _ _ _ _ M a H'); [congruence|contradiction].
  Qed.
  Lemma resv_left_by s0 s e a : wtok t s0 s -> wev_ok t e -> loose_resv s0 (snd (wtstep t e s)) a -> loose_resv s0 s a \/
    exists tid pd, e = WEGo tid /\ wt_pool s tid = Some pd /\ wpd_reserved pd a /\ refused_release (wkern s) (wkern (snd (wtstep t e s))).
  Proof.
    intros K He L. assert (Be : match e with WECall _ | WEGo _ => False | _ => True end -> loose_resv s0 s a).
    { intros B. destruct (begin_same s0 s e K B) as (E & _ & H). apply loose_resv_alt in L. rewrite E, H in L. apply loose_resv_alt, L. }
    destruct e as [c|tid mut o path|tid mut o fd|tid mut o|tid inf hint|tid k|tid]; try (left; apply Be; exact Logic.I); clear Be.
    - destruct He as [Hc Sg]. left. pose proof (ex_resv _ _ _ _ (explained_ok t Ht c (wt_p s) (wtok_wpok t s0 s K) Hc) a) as X.
      destruct (wpstep t c (wt_p s)) as [x p'] eqn:Es. rewrite (call_step _ _ _ _ Es) in *. cbn [wt_p snd] in *. destruct L as (L0 & L1 & L2). cbn [wt_p wt_pool] in *.
      split; [exact L0|]. split; [|exact L2]. destruct (n_resv (g_s (wp_g p')) a) as [n|] eqn:Ra; [|contradiction].
      destruct (X n eq_refl) as [H|F]; [congruence|]. destruct F as (hint & [-> | ->] & _); discriminate Sg.
    - destruct (wt_pool s tid) as [pd|] eqn:Hp; [|cbn [wtstep] in L; rewrite Hp in L; auto]. destruct (go_items s0 s tid pd K Hp) as (E & _ & Ck).
      pose proof K as [Kg _]. pose proof (gk_fam _ _ _ _ Kg) as [W So _ _ _ _]. apply loose_resv_alt in L as (L0 & L1 & L2). rewrite Ck in L2. rewrite E in *.
      destruct (advance_leaves s0 _ pd W So (gk_tiled _ _ _ _ Kg) (gk_stage _ _ _ _ Kg _ _ Hp) (gok_item t _ _ _ _ _ Kg Hp)) as [_ Lr].
      destruct (n_resv (snd (wadvance t pd (wkern s))) a) as [n|] eqn:Ra; [|contradiction]. destruct (Lr a n Ra) as [[R0 Nb]|[B|(F & R)]].
      + left. apply loose_resv_alt. split; [exact L0|]. rewrite R0. split; [discriminate|]. intros (i & pe & Hi & Hr).
        destruct (Z.eq_dec i tid) as [->|Ni]; [|apply L2; left; eauto 6]. assert (pe = pd) by congruence. subst pe. apply Nb, resv_of, Hr.
      + destruct L2. right. exact B.
      + right. exists tid, pd. split; [reflexivity|]. split; [exact Hp|]. split; [apply resv_of, F|exact R].
  Qed.

  (** ** When nothing is refused *)
  Lemma tidy_reached s0 s : wttidy t s0 s -> wtreached t s0 s.
  Proof. induction 1; [apply wtr_start; assumption|apply wtr_step; assumption]. Qed.
  Lemma tidy_none s0 s : wttidy t s0 s -> (forall a, ~ loose_view t s a) /\ (forall a, ~ loose_resv s0 s a).
  Proof.
    induction 1 as [F|s e R [IH1 IH2] He De Nr].
    - split; intros a; [intros [V _]|intros (L0 & L1 & _)]; cbn in *; [destruct F as [_ _ F2]; rewrite F2 in V|]; contradiction.
    - pose proof (wtreached_ok t Ht s0 s (tidy_reached s0 s R)) as K. split; intros a L.
      + destruct (view_left s0 s e a K He L) as [L'|[(k & x & -> & Hk & B & [M|M])|(tid & pd & _ & _ & _ & _ & M)]]; [exact (IH1 a L')|exact (De x Hk M)|exact (Nr M)|exact (Nr M)].
      + destruct (resv_left_by s0 s e a K He L) as [L'|(tid & pd & _ & _ & _ & M)]; [exact (IH2 a L')|exact (Nr M)].
  Qed.
End Ledger.
