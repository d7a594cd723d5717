(** Calls in progress on Windows: one system call keeps what the call relies on. *)
From Coq Require Import Lia.
From Verif Require Import Base Spec ErrorModel SizeModel OsModel MapModel MapSpec RingMapModel RingMapSpec SizeProofs OsProofs
  MapProofs MapCreate MapOps MirrorProofs RingMapClaims MemRingModel ProcModel ProcFrame ProcProofs ProcPages
  WinModel WinSpec WinProofs WinClaims WinCalls WinMapModel WinMapSpec WinSpace WinKeep WinMapProofs WinAlloc WinThings WinHist WinLeak WinMapClaims
  WinProcModel WinProcSpec WinProcProofs WinLedgerSpec WinLedger WinThreadModel WinThreadSpec WinThreadInv.

Section Adv.
  Variable t : target.
  Hypothesis Ht : good_target t.
  Notation P := (t_page t).
  Notation G := (t_alloc t).
  Let HP : 0 < P.
  Proof. exact (pow2_pos _ (proj1 (proj2 Ht))). Qed.
  Let HG : 0 < G.
  Proof. exact (pow2_pos _ (proj1 (proj2 (proj2 Ht)))). Qed.
  Let HB : 0 < t_bits t.
  Proof. destruct Ht as [[E|E] _]; lia. Qed.
  Let HPG : P <= G.
  Proof. apply Ht. Qed.
  Notation moved := (moved t).
  Notation item_ok := (item_ok t).
  Notation stage_ok := (stage_ok t).
  Notation kfacts := (kfacts t).

  (** ** One half of a ring, and both *)
  Lemma half_base pg len : pg mod G = 0 -> map_base t {| m_ptr := pg; m_len := len |} = pg.
  Proof. intros H. pose proof (map_base_eq t Ht pg 0 len H ltac:(lia)) as E. rewrite Z.add_0_r in E. exact E. Qed.
  Lemma low_aligned pg : P <= pg -> pg mod G = 0 -> G <= pg.
  Proof. intros H1 H2. pose proof (Z.div_mod pg G ltac:(lia)) as D. rewrite H2 in D. assert (0 < pg / G) by nia. nia. Qed.
  Lemma pages_of_len len : 0 < len -> len mod G = 0 -> len = P * npages t len /\ 0 < npages t len.
  Proof.
    intros H0 H. apply (aligned_page t Ht) in H. apply Z.mod_divide in H as (k & ->); [|lia]. replace (k * P) with (P * k) by lia. rewrite npages_mul by exact HP. nia.
  Qed.
  Lemma half_made s s' c pg len ob : viewed t s s' c MapReadWrite 0 len pg -> sc_obj c = ob -> sc_w c = true -> ob < w_next (n_w s) ->
    sc_size c <= o_size (w_obj (n_w s) ob) -> thing_ok t s' (half pg len ob) /\ map_base t {| m_ptr := pg; m_len := len |} = pg /\ n_view s pg = None.
  Proof.
    intros V Eo Ew Ho Hs. pose proof (viewed_of t Ht s s s' c 0 len pg ReadWrite eq_refl eq_refl eq_refl V Ew) as Vo. rewrite Eo in Vo.
    pose proof V as [A1 A2 A3 A4 A5 A6 A7 A8 A9 A10 A11 A12 A13 A14 A15 A16].
    pose proof (half_base pg len A1) as Hb. split; [|split; [exact Hb|apply A6]].
    refine (made_map_ok t Ht s s' {| v_map := {| m_ptr := pg; m_len := len |}; v_mut := true; v_obj := ob; v_off := 0; v_prot := ReadWrite; v_anon := true; v_w := true |}
      0 len ReadWrite eq_refl eq_refl eq_refl _ _ _); cbn [v_map v_obj m_len]; [|rewrite A14; exact Ho|intros _; rewrite A13; lia].
    split; rewrite ?Hb, ?Z.mod_0_l by lia; cbn [m_ptr m_len]; try lia. exact Vo.
  Qed.
  Lemma half_full s s' c pg len ob : thing_ok t s (half pg len ob) -> n_view s pg = Some (npages t len) -> pg mod G = 0 -> len mod G = 0 ->
    viewed t s s' c MapReadWrite 0 len (pg + len) -> sc_obj c = ob -> sc_w c = true -> exists n, ring_ok t s' {| ra_ptr := pg; ra_len := len |} ob n.
  Proof.
    intros H M4 Ag Al V Eo Ew. destruct H as [M1 M2 M3 _ M5 M6 M7 M8]. cbn [v_map v_obj v_off v_prot v_w v_anon m_len m_ptr] in *.
    rewrite (half_base pg len Ag) in *.
    destruct V as [A1 A2 A3 A4 A5 A6 A7 A8 A9 A10 A11 A12 A13 A14 A15 A16].
    destruct (pages_of_len len A3 Al) as [El Np]. set (n := npages t len) in *. exists n.
    apply range_ok_iff in A5 as (R1 & R2 & R3). pose proof (aligned_page t Ht _ Ag) as Ap.
    assert (Ed : (pg + len) / P = pg / P + n) by (rewrite El; replace (pg + P * n) with (pg + n * P) by lia; apply Z.div_add; lia).
    assert (Pg : forall k, 0 <= k < 2 * n -> exists e, w_vm (n_w s') (pg / P + k) = Some e /\
      p_obj e = ob /\ p_idx e = k mod n /\ p_r e = true /\ p_w e = true /\ p_shared e = true /\ p_copy e = None /\ p_maxw e = true).
    { intros k Hk. rewrite A8. destruct (in_pages_cases ((pg + len) / P) n (pg / P + k)) as [[-> I]|[-> I]].
      - eexists. split; [reflexivity|]. cbn. rewrite Ew, Ed in *. split; [exact Eo|]. split; [|auto 6].
        rewrite ?Z.div_0_l by lia. replace k with (k - n + 1 * n) at 2 by lia. rewrite Z.mod_add, Z.mod_small by lia. lia.
      - rewrite Ed in I. assert (Hk' : 0 <= k < n) by lia. rewrite Z.mod_small by exact Hk'.
        assert (C : 0 < pg mod P + len) by lia. specialize (M5 C). pose proof (bk_pages _ _ _ _ _ _ _ M5 (pg / P + k)) as Bp.
        assert (Op : own_page t {| m_ptr := pg; m_len := len |} (pg / P + k)).
        { unfold own_page, first_page, page_count. cbn [m_ptr m_len]. rewrite Ap, Z.add_0_l. fold n. lia. }
        destruct (Bp Op) as (e & He & E1 & E2 & E3 & E4 & E5 & E6). exists e. split; [exact He|]. split; [exact E1|].
        split; [rewrite E2; unfold first_page; cbn [m_ptr t_page as_posix]; rewrite Z.div_0_l by lia; lia|].
        split; [exact E5|]. split; [exact (M6 eq_refl _ _ Op He)|]. split; [exact E3|]. split; [exact (E6 eq_refl)|exact E4]. }
    split; cbn [ra_ptr ra_len]; auto; try lia.
    - rewrite A9. split; [|apply put_same]. rewrite put_other by lia. exact M4.
    - intros k Hk. destruct (Pg k Hk) as (e & He & E1 & E2 & E3 & E4 & E5 & E6 & _). exists e. auto 9.
    - rewrite A13, <- El. lia.
    - intros k e Hk He. destruct (Pg k Hk) as (e' & He' & E). assert (e' = e) by congruence. subst e'. tauto.
  Qed.
  Lemma ring_half s s' r ob n : ring_ok t s r ob n -> space_ok t s -> keeps t s s' \/ (exists a, a = ra_ptr r + ra_len r /\ evolves t (fun x => x = a) none none s s') ->
    ~ named (n_w s) ob -> thing_ok t s' (half (ra_ptr r) (ra_len r) ob) /\ map_base t {| m_ptr := ra_ptr r; m_len := ra_len r |} = ra_ptr r.
  Proof.
    intros [R1 R2 R3 R4 R5 [R6 R6'] R7 R8 R9 R10] So E Nn. destruct (so_view _ _ So _ _ R6) as (_ & Ag & _).
    pose proof (half_base (ra_ptr r) (ra_len r) Ag) as Hb. split; [|exact Hb].
    assert (Hk : thing_ok t s (half (ra_ptr r) (ra_len r) ob)).
    { cbn. split; cbn [v_map v_obj v_off v_prot v_w v_anon m_len m_ptr]; rewrite ?Hb.
      - nia.
      - apply low_aligned; assumption.
      - nia.
      - exists n. split; [exact R6|]. unfold own_page, first_page, page_count, in_view. cbn [m_ptr m_len]. rewrite R3, R2, Z.add_0_l, npages_mul by exact HP. auto.
      - intros C. split; cbn [m_ptr m_len t_page t_bits as_posix]; try nia.
        + unfold first_page, page_count. cbn [m_ptr m_len t_page as_posix]. rewrite R3, R2, Z.add_0_l.
          change (npages (as_posix t) (P * n)) with (npages t (P * n)). rewrite npages_mul by exact HP.
          pose proof (Z.div_mod (ra_ptr r) P ltac:(lia)). nia.
        + rewrite R3. split; [lia|apply Z.mod_0_l; lia].
        + intros p. unfold own_page, first_page, page_count. cbn [m_ptr m_len t_page as_posix]. rewrite R3, R2, Z.add_0_l.
          change (npages (as_posix t) (P * n)) with (npages t (P * n)). rewrite npages_mul by exact HP. intros Hp.
          destruct (R7 (p - ra_ptr r / P) ltac:(lia)) as (e & He & E1 & E2 & E3 & E4 & E5 & E6).
          replace (ra_ptr r / P + (p - ra_ptr r / P)) with p in He by lia. exists e. split; [exact He|]. split; [exact E1|].
          split; [rewrite E2, Z.mod_small, Z.div_0_l by lia; lia|]. split; [exact E5|]. split; [|auto].
          apply (R10 (p - ra_ptr r / P)); [lia|]. replace (ra_ptr r / P + (p - ra_ptr r / P)) with p by lia. exact He.
      - intros _ p e. unfold own_page, first_page, page_count. cbn [m_ptr m_len]. rewrite R3, R2, Z.add_0_l, npages_mul by exact HP. intros Hp He.
        destruct (R7 (p - ra_ptr r / P) ltac:(lia)) as (e' & He' & E1 & E2 & E3 & E4 & _).
        replace (ra_ptr r / P + (p - ra_ptr r / P)) with p in He' by lia. congruence.
      - intros _. rewrite R2. lia.
      - exact R9. }
    destruct E as [E|(a & Ea & E)].
    - apply (thing_ev t Ht none none none s s' _ So E); [intros b []|intros _; exact Nn|exact Hk].
    - apply (thing_ev t Ht (fun x => x = a) none none s s' _ So E); [|intros _; exact Nn|exact Hk].
      intros b -> . cbn. rewrite Hb. nia.
  Qed.

  (** ** The stages *)
  Definition good_outcome (s0 s s' : win) (pd : wpend) (x : woutcome) : Prop :=
    let mv := fun new h r => moved s0 s s' (wpiece t pd) new (wpd_handle pd) h (wpd_resv pd) r in
    match x with
    | WMore pd' => mv (wpiece t pd') (wpd_handle pd') (wpd_resv pd') /\ stage_ok s0 s' pd'
    | WMadeFile mut own o fd ob m => mv (Some (tab_item (made_file mut o ob m))) None None
    | WMadeAnon mut o ob m => mv (Some (tab_item (made_anon t mut o ob m))) None None /\ forall i, o_data (w_obj (n_w s') ob) i = 0
    | WMadeRing inf ob pg len => mv (Some (tab_item (TRing {| ra_ptr := pg; ra_len := len |} ob))) None None /\ forall i, o_data (w_obj (n_w s') ob) i = 0
    | WOver _ => mv None None None
    end.

  Lemma moved_plain s0 s s' old new h : keeps t s s' -> n_sec s' = n_sec s -> (forall a, n_resv s' a = n_resv s a) -> tiled t s0 s' ->
    item_next t s s' old new -> moved s0 s s' old new h h None None.
  Proof.
    intros K S R T I. split; auto.
    - exists none. split; [exact K|intros b []].
    - left. auto.
    - intros a n H. right. rewrite R. exact H.
  Qed.
  Lemma moved_wq s0 s s' old new h : wq s s' -> tiled t s0 s -> item_next t s s' old new -> moved s0 s s' old new h h None None.
  Proof.
    intros Q T I. apply moved_plain; auto; try (intros; rewrite (wq_resv _ _ Q); reflexivity); try apply ev_wq; try apply Q.
    assert (A : alike s s') by (destruct Q as [[V O N F S] B C D E]; split; [apply dom_eq; exact V|intros a; congruence|intros a; congruence]).
    exact (proj1 (alike_goes t s0 _ _ A T)); auto.
  Qed.
  Lemma moved_close s0 s old new h : tiled t s0 s -> item_next t s (snd (close_handle h s)) old new ->
    moved s0 s (snd (close_handle h s)) old new (Some h) None None None.
  Proof.
    intros T I. split; auto.
    - exists none. split; [apply close_keeps|intros b []].
    - right. right. exists h. auto.
    - refine (proj1 (alike_goes t s0 s _ _ T)). split; [apply dom_refl| |]; reflexivity.
  Qed.
  (** A file operation. *)
  Lemma moved_lift {A} s0 s w' (m : ST error A) r h : lift m s = (r, with_w s w') -> domly m -> keeps t s (with_w s w') -> tiled t s0 s ->
    moved s0 s (with_w s w') None None h h None None.
  Proof.
    intros E D K T. apply moved_plain; auto; [|apply next_none]. pose proof (goesly_lift t s0 m D s T) as [T' _]. rewrite E in T'. exact T'.
  Qed.
  Lemma lift_inv {A} (m : ST error A) s r s' : lift m s = (r, s') -> exists w', m (n_w s) = (r, w') /\ s' = with_w s w'.
  Proof. unfold lift. destruct (m (n_w s)) as [rr ww]. intros X. injection X as <- <-. eauto. Qed.
  Lemma tiled_view s0 s s' h op acc off len at_ r : tiled t s0 s -> handle_view t h op acc off len at_ s = (r, s') -> tiled t s0 s'.
  Proof. intros T E. pose proof (goesly_win t s0 op _ (goesly_map t s0 h acc (hi_dword off) (lo_dword off) len at_) s T) as [T' _]. unfold handle_view in E. rewrite E in T'. exact T'. Qed.
  Lemma tiled_new s0 s s' op file pr len r : tiled t s0 s -> handle_new t op file pr len s = (r, s') -> tiled t s0 s'.
  Proof. intros T E. pose proof (goesly_win t s0 op _ (goesly_create t s0 file pr (hi_dword len) (lo_dword len)) s T) as [T' _]. unfold handle_new in E. rewrite E in T'. exact T'. Qed.
  Lemma tiled_unmap s0 s s' a r : tiled t s0 s -> unmap_view t a s = (r, s') -> tiled t s0 s'.
  Proof. intros T E. pose proof (goesly_unmap t s0 a s T) as [T' _]. rewrite E in T'. exact T'. Qed.

  (** MapViewOfFileEx *)
  Lemma view_ok s0 s s' h op acc off len at_ r c : 0 <= off < 2 ^ 64 -> tiled t s0 s -> n_sec s h = Some c -> sc_obj c < w_next (n_w s) ->
    handle_view t h op acc off len at_ s = (r, s') ->
    keeps t s s' /\ n_sec s' = n_sec s /\ (forall a, n_resv s' a = n_resv s a) /\ tiled t s0 s' /\
    match r with
    | Ret b => (at_ <> 0 -> b = at_) /\ (acc = MapReadWrite -> sc_w c = true) /\ viewed t s s' c acc off (if len =? 0 then sc_size c - off else len) b
    | Err _ => wq s s'
    | _ => False
    end.
  Proof.
    intros Ho T Hc Hn E. pose proof (tiled_view _ _ _ _ _ _ _ _ _ _ T E) as T'. apply win_call_run in E.
    assert (H : exists r1, map_view t h acc (hi_dword off) (lo_dword off) len at_ s = (r1, s') /\
      match r with Ret a => r1 = Ret a | Err _ => exists z, r1 = Err z | Panic => r1 = Panic | Fault => r1 = Fault | Blocked => r1 = Blocked end).
    { destruct r as [a|e| | |]; try destruct E as (z & E & _); eauto. }
    clear E. destruct H as (r1 & E & Er). pose proof (map_view_keeps t Ht _ _ _ _ _ _ _ _ _ Ho Hc Hn E) as K. split; [exact K|].
    apply (map_view_spec t _ _ _ _ _ _ _ _ Ho) in E as [_ E]. destruct r1 as [b|e| | |]; try contradiction.
    - destruct E as (E1 & c' & Hc' & Ew & V). assert (c' = c) by congruence. subst c'. split; [apply V|]. split; [intros a; rewrite (vw_resv _ _ _ _ _ _ _ _ V); reflexivity|].
      split; [exact T'|]. destruct r as [a|e| | |]; try discriminate Er; [injection Er as <-; auto|destruct Er as (z & Er); discriminate Er].
    - split; [apply E|]. split; [intros a; rewrite (wq_resv _ _ E); reflexivity|]. split; [exact T'|].
      destruct r as [a|e0| | |]; try discriminate Er. exact E.
  Qed.
  (** A new map of [len] bytes of the section's object from [off] on. *)
  Lemma view_made s s' c p off len ptr d : viewed t s s' c (snd (protect_pair p)) (off - d) (if len + d =? 0 then sc_size c - (off - d) else len + d) ptr ->
    sc_w c = rw_section p -> d = off mod G -> 0 <= off -> 0 <= len ->
    exists V, map_made t s s' {| m_ptr := ptr_add t ptr d; m_len := len |} (sc_obj c) off V p /\ n_view s (map_base t {| m_ptr := ptr_add t ptr d; m_len := len |}) = None.
  Proof.
    intros V Ew Ed Ho Hl. pose proof (Z.mod_pos_bound off G HG) as D2. set (L := if len + d =? 0 then _ else _) in *. exists L.
    pose proof (viewed_of t Ht s s s' c _ _ _ p eq_refl eq_refl eq_refl V Ew) as Vo. pose proof Vo as (V1 & V2 & V3 & V4 & _).
    assert (HL : d + len <= L) by (unfold L in *; destruct (Z.eqb_spec (len + d) 0); lia).
    assert (PA : ptr_add t ptr d = ptr + d) by (unfold ptr_add, as_usize; apply Z.mod_small; lia).
    rewrite PA. assert (Eb : map_base t {| m_ptr := ptr + d; m_len := len |} = ptr) by (apply (map_base_eq t Ht); [exact V2|lia]).
    rewrite Eb. split; [|apply V]. split; cbn [m_ptr m_len]; rewrite ?Eb, <- ?Ed; try lia. exact Vo.
  Qed.

  (** CreateFileMapping of anonymous memory *)
  Lemma new_anon_ok s0 s s' op pr size r : wf (n_w s) -> 0 <= size < 2 ^ t_bits t -> tiled t s0 s -> handle_new t op None pr size s = (r, s') ->
    match r with
    | Ret h => size <> 0 /\ moved s0 s s' None (Some {| i_obj := w_next (n_w s); i_priv := true; i_thing := None |}) None (Some h) None None /\
        (exists c, n_sec s' h = Some c /\ sc_obj c = w_next (n_w s) /\ sc_w c = match pr with PageReadWrite => true | _ => false end /\
           sc_size c <= o_size (w_obj (n_w s') (w_next (n_w s)))) /\
        size <= o_size (w_obj (n_w s') (w_next (n_w s))) /\ forall i, o_data (w_obj (n_w s') (w_next (n_w s))) i = 0
    | Err _ => moved s0 s s' None None None None None None
    | _ => False
    end.
  Proof.
    intros W Hs T E. pose proof (tiled_new _ _ _ _ _ _ _ _ T E) as T'. pose proof (word_64 t Ht) as W64.
    apply win_call_run in E. assert (Hs' : 0 <= size < 2 ^ 64) by lia.
    destruct r as [h|e| | |]; try destruct E as (z & E & _); pose proof (create_anon_keeps t Ht _ _ _ _ _ Hs' E) as K;
      apply (create_anon_spec t _ _ _ _ _ Hs') in E as [_ E]; try contradiction.
    - destruct E as (C1 & C2 & C3 & (c & C4 & C5 & C6 & C7) & C8 & C9 & C10 & C11 & C12 & C13 & C14 & C15 & C16).
      pose proof (npages_bounds t HP size) as Nb. split; [exact C3|]. split; [|rewrite C8, put_same, C4, put_same; cbn; split; [exists c; rewrite C6; auto 6 with zarith|split; [lia|reflexivity]]].
      split; auto.
      + exists none. split; [exact K|intros b []].
      + intros it [= <-]. cbn. split; [discriminate|]. split; [lia|]. right. split; [lia|]. intros Nm.
        apply (named_same _ _ C11 C12) in Nm. pose proof (named_wf _ _ W Nm). lia.
      + right. left. exists h, c. auto.
      + intros a n. rewrite C14. auto.
    - apply moved_wq; [exact E|exact T|apply next_none].
  Qed.

  Lemma kfacts_keeps s s' len full h ob : kfacts s len full h ob -> n_sec s' = n_sec s -> w_obj (n_w s') ob = w_obj (n_w s) ob -> kfacts s' len full h ob.
  Proof. unfold WinThreadInv.kfacts. intros H -> ->. exact H. Qed.
  Lemma unmap_ok s0 s s' a r : tiled t s0 s -> unmap_view t a s = (r, s') ->
    evolves t (fun x => x = a) none none s s' /\ n_sec s' = n_sec s /\ n_resv s' = n_resv s /\ w_obj (n_w s') = w_obj (n_w s) /\
    w_next (n_w s') = w_next (n_w s) /\ tiled t s0 s' /\ match r with Ret _ => True | Err _ => wq s s' | _ => False end.
  Proof.
    intros T E. pose proof (tiled_unmap _ _ _ _ _ T E) as T'. pose proof (unmap_view_ev t _ _ _ _ E) as [Ev _]. split; [exact Ev|].
    apply unmap_view_spec in E as [_ E]. destruct r as [u|e| | |]; try contradiction.
    - destruct E as (n & _ & _ & _ & D & D1 & D2 & D3 & D4 & _). auto 8.
    - destruct E as [[V O N F S] B C D0 E0] eqn:Q. auto 8.
  Qed.
  Lemma fail_more s0 s s' own fd pd A (r : out error A) : moved s0 s s' (wpiece t pd) None (wpd_handle pd) None (wpd_resv pd) None -> (forall a, r <> Ret a) ->
    good_outcome s0 s s' pd (vfail own fd r).
  Proof. intros M Hr. unfold vfail. destruct own; [|exact M]. split; [exact M|exact Logic.I]. Qed.

  Lemma wadvance_ok s0 s pd : wf (n_w s) -> space_ok t s -> tiled t s0 s -> stage_ok s0 s pd -> item_ok s (wpiece t pd) ->
    let x := wadvance t pd s in good_outcome s0 s (snd x) pd (fst x).
  Proof.
    intros W So T St It. cbv zeta. pose proof (word_64 t Ht) as W64.
    assert (Z64 : 0 <= 0 < 2 ^ 64) by lia.
    assert (LK : forall A (m : ST error A) r s', lift m s = (r, s') -> domly m -> (forall w', m (n_w s) = (r, w') -> keeps t s (with_w s w')) ->
      moved s0 s s' None None None None None None).
    { intros A m r s' E D K. pose proof E as E'. apply lift_inv in E as (w' & E & ->). exact (moved_lift s0 s w' m r None E' D (K w' E) T). }
    assert (FL : forall fd, domly (do* l <- io_call (file_len fd); sret (E:=error) (as_usize t l))).
    { intros fd. apply domly_bind; [apply domly_io, domly_len|intros l; apply domly_ret]. }
    assert (FI : forall A (r : out error A) s' own fd pd', wpiece t pd' = None -> wpd_handle pd' = None -> wpd_resv pd' = None ->
      moved s0 s s' None None None None None None -> good_outcome s0 s s' pd' (vfail own fd r)).
    { intros A r s' own fd pd' E1 E2 E3 M. unfold vfail. destruct own; cbn [good_outcome]; rewrite E1, E2, E3; [split; [exact M|exact Logic.I]|exact M]. }
    destruct pd; cbn [wadvance wpiece wpd_handle wpd_resv stage_ok] in *.
    - (* VOpen *)
      destruct (lift (io_call (file_open t (op_open o) path)) s) as [r s'] eqn:E.
      assert (M : moved s0 s s' None None None None None None).
      { apply (LK _ _ _ _ E); [apply domly_io, domly_file_open|]. intros w' E'. unfold io_call in E'.
        destruct (file_open t (op_open o) path (n_w s)) as [r1 w1] eqn:E1. assert (w1 = w') by (destruct r1; injection E'; auto). subst w1.
        exact (file_open_keeps t Ht _ _ _ _ _ W E1). }
      destruct r as [fd|e| | |]; cbn [wthen fst snd]; try exact M. split; [exact M|exact St].
    - (* VStat *)
      destruct (lift (do* l <- io_call (file_len fd); sret (as_usize t l)) s) as [r s'] eqn:E.
      assert (M : moved s0 s s' None None None None None None).
      { apply (LK _ _ _ _ E (FL fd)). intros w' E'. apply ev_wq, with_w_quiet. unfold sbind, io_call, file_len in E'.
        destruct (sys_fstat fd (n_w s)) as [r1 w1] eqn:E1. apply fstat_spec in E1 as [Q _]. destruct r1; injection E' as _ <-; exact Q. }
      destruct r as [flen|e| | |]; cbn [wthen fst snd]; try (apply FI; auto; fail). split; [exact M|]. split; [exact St|].
      apply lift_inv in E as (w' & E & _). unfold sbind, io_call, file_len in E.
      destruct (sys_fstat fd (n_w s)) as [[n|e| | |] w1]; try discriminate E. injection E as <- _. apply Z.mod_pos_bound. lia.
    - (* VCut *)
      destruct St as [So1 Ul]. destruct (lift (if op_truncate o && (0 <? flen) then resize_to t fd 0 else sret flen) s) as [r s'] eqn:E.
      assert (U0 : is_usize t 0) by (split; [lia|apply Z.pow_pos_nonneg; lia]).
      assert (M : moved s0 s s' None None None None None None /\ forall n, r = Ret n -> is_usize t n).
      { destruct (op_truncate o && (0 <? flen)).
        - split.
          + apply (LK _ _ _ _ E); [apply domly_resize|]. intros w' E'. exact (proj1 (resize_keeps t Ht _ _ _ _ _ W U0 E')).
          + apply lift_inv in E as (w' & E & _). intros n Hn. rewrite (proj2 (resize_keeps t Ht _ _ _ _ _ W U0 E) n Hn). exact U0.
        - split.
          + apply (LK _ _ _ _ E); [apply domly_ret|]. intros w' E'. injection E' as _ <-. apply ev_wq, with_w_quiet. split; reflexivity.
          + apply lift_inv in E as (w' & E & _). injection E as <- _. intros n [= <-]. exact Ul. }
      destruct M as [M Hn]. destruct r as [n|e| | |]; cbn [wthen fst snd]; try (apply FI; auto; fail). split; [exact M|]. split; [exact So1|exact (Hn n eq_refl)].
    - (* VSize *)
      destruct St as [So1 Ul]. destruct (lift (vsize t o fd flen) s) as [r s'] eqn:E. pose proof So1 as (Ur & _ & _).
      assert (M : moved s0 s s' None None None None None None /\ forall n, r = Ret n -> is_usize t n).
      { assert (Rs : forall sz, is_usize t sz -> lift (resize_to t fd sz) s = (r, s') -> moved s0 s s' None None None None None None /\ forall n, r = Ret n -> is_usize t n).
        { intros sz U E'. split.
          + apply (LK _ _ _ _ E'); [apply domly_resize|]. intros w' E1. exact (proj1 (resize_keeps t Ht _ _ _ _ _ W U E1)).
          + apply lift_inv in E' as (w' & E' & _). intros n Hn. rewrite (proj2 (resize_keeps t Ht _ _ _ _ _ W U E') n Hn). exact U. }
        assert (Rt : lift (sret (E:=error) flen) s = (r, s') -> moved s0 s s' None None None None None None /\ forall n, r = Ret n -> is_usize t n).
        { intros E'. split.
          + apply (LK _ _ _ _ E'); [apply domly_ret|]. intros w' E1. injection E1 as _ <-. apply ev_wq, with_w_quiet. split; reflexivity.
          + apply lift_inv in E' as (w' & E' & _). injection E' as <- _. intros n [= <-]. exact Ul. }
        unfold vsize in E. destruct (op_resize o) as [|z|z|z]; cbn [extent_ok] in Ur; auto.
        - exact (Rs _ Ur E).
        - destruct (flen <? z); [exact (Rs _ Ur E)|exact (Rt E)].
        - destruct (z <? flen); [exact (Rs _ Ur E)|exact (Rt E)]. }
      destruct M as [M Hn]. destruct r as [n|e| | |]; cbn [wthen fst snd]; try (apply FI; auto; fail). split; [exact M|]. split; [exact So1|exact (Hn n eq_refl)].
    - (* VCreate *)
      destruct St as [So1 Ul]. destruct (vplan_spec t Ht o flen So1 Ul) as [E|(len & E & Hl & Hh)]; rewrite E.
      + cbn. apply moved_plain; auto using ev_refl, next_none.
      + destruct (handle_new t MapFileHandle (Some fd) (fst (protect_pair (op_protect o))) 0 s) as [r s'] eqn:En.
        pose proof (tiled_new _ _ _ _ _ _ _ _ T En) as T'. apply win_call_run in En. destruct So1 as (_ & _ & Uo).
        destruct r as [h|e| | |]; try destruct En as (z & En & _); pose proof (create_file_keeps t _ _ _ _ _ En) as K;
          apply create_file_spec in En as [_ En]; try contradiction; cbn [wthen fst snd].
        * destruct En as (C1 & C2 & f & C3 & C4 & C5 & Q & C6 & C7 & C8). assert (Eo : fd_objw (n_w s) fd = fd_obj f) by (unfold fd_objw; rewrite C3; reflexivity).
          pose proof (wf_fd _ W _ _ C3) as [_ Wf]. pose proof Q as [V1 O1 N1 F1 S1]. split.
          { split; auto.
            - exists none. split; [exact K|intros b []].
            - cbn. intros it [= <-]. cbn. rewrite Eo. split; [discriminate|]. split; [lia|]. right. left. exists fd, f. rewrite F1. auto.
            - right. left. eexists h, _. split; [reflexivity|]. split; [reflexivity|]. split; [exact C1|exact C5].
            - intros a n. rewrite C7. auto. }
          cbn [WinThreadInv.stage_ok]. split; [|auto 8]. rewrite C5, put_same. eexists. split; [reflexivity|]. cbn. split; [symmetry; exact Eo|reflexivity].
        * apply FI; auto. apply moved_wq; auto using next_none.
    - (* VView *)
      destruct St as ((c & Hc & Eo & Ew) & Uo & -> & -> & Hl & Hh). pose proof (Z.mod_pos_bound (op_offset o) G HG) as D2.
      assert (Do : op_offset o mod G <= op_offset o) by (apply Z.mod_le; unfold is_usize in Uo; lia).
      unfold uadd. rewrite wrap_in by lia. destruct (It _ eq_refl) as (_ & I2 & _). cbn [i_obj] in I2. unfold is_usize in Uo.
      destruct (handle_view t h MapFileView (snd (protect_pair (op_protect o))) (op_offset o - op_offset o mod G) (len + op_offset o mod G) 0 s) as [r s'] eqn:E.
      assert (Mo : 0 <= op_offset o - op_offset o mod G < 2 ^ 64) by lia. assert (Oc : sc_obj c < w_next (n_w s)) by lia.
      destruct (view_ok s0 s s' h _ _ _ _ _ r c Mo T Hc Oc E) as (K & Es & Er & T' & V). cbn [fst snd good_outcome].
      split; [|cbn [WinThreadInv.stage_ok]; rewrite Es; eauto].
      apply moved_plain; auto. cbn [wpiece]. destruct r as [ptr|e| | |]; try contradiction.
      + destruct V as (_ & _ & V). destruct (view_made s s' c (op_protect o) (op_offset o) len ptr _ V Ew eq_refl ltac:(lia) Hl) as (VV & M & Fr).
        intros it [= <-]. cbn [i_thing i_obj i_priv]. pose proof (ev_next _ _ _ _ _ _ K). split; [|split; [lia|left; eexists; split; [reflexivity|auto]]].
        intros x [= <-]. split; [|split; [reflexivity|split; [reflexivity|]]].
        * refine (made_map_ok t Ht s s' {| v_map := {| m_ptr := ptr_add t ptr (op_offset o mod G); m_len := len |}; v_mut := mut; v_obj := ob; v_off := op_offset o;
            v_prot := op_protect o; v_anon := false; v_w := writable (op_protect o) |} (op_offset o) VV (op_protect o) eq_refl eq_refl _ _ _ _); cbn; try discriminate; [destruct (op_protect o); reflexivity|rewrite <- Eo; exact M|lia].
        * intros b ->. left. exact Fr.
      + intros it [= <-]. cbn. split; [discriminate|]. pose proof (ev_next _ _ _ _ _ _ K). split; [lia|]. left. eexists. split; [reflexivity|auto].
    - (* VDone *)
      cbn [fst snd]. assert (B : item_next t s (snd (close_handle h s)) (wpiece t (VDone mut own o fd h ob d len r)) (wpiece t (VDone mut own o fd h ob d len r))).
      { cbn [wpiece]. apply (next_same t Ht none none); auto. apply close_keeps. }
      destruct r as [ptr|e| | |]; [apply moved_close; auto|..];
        (unfold vfail; destruct own; cbn [good_outcome]; [split; [|exact Logic.I]|]; apply moved_close; auto using next_none).
    - (* VClose *)
      cbn [fst snd good_outcome]. apply moved_plain; auto using next_none; [apply sys_close_keeps|].
      refine (proj1 (alike_goes t s0 s _ _ T)). split; [apply dom_eq; reflexivity| |]; reflexivity.
    - (* NCreate *)
      destruct St as (-> & -> & Hl & Hh). pose proof (Z.mod_pos_bound (op_offset o) P HP) as D2.
      destruct (handle_new t MapAnonymousHandle None (fst (protect_pair (op_protect o))) (op_offset o mod P + len) s) as [r s'] eqn:E.
      assert (Hs : 0 <= op_offset o mod P + len < 2 ^ t_bits t) by lia. pose proof (new_anon_ok s0 s s' _ _ _ r W Hs T E) as N. destruct r as [h|e| | |]; try contradiction; cbn [wthen fst snd]; [|exact N].
      destruct N as (Nz & M & (c & C1 & C2 & C3 & _) & Sz & Dz). split; [exact M|]. cbn [WinThreadInv.stage_ok]. split; [reflexivity|]. split; [reflexivity|]. split; [exact Hl|]. split; [exact Hh|].
      split; [exact Nz|]. split; [|split; [exact Sz|exact Dz]]. eauto.
    - (* NView *)
      destruct St as (-> & -> & Hl & Hh & Nz & (c & Hc & Eo & Ew) & Sz & Dz). pose proof (Z.mod_pos_bound (op_offset o) P HP) as D2.
      destruct (It _ eq_refl) as (_ & I2 & _). cbn [i_obj] in I2. set (off := op_offset o mod P) in *.
      destruct (handle_view t h MapAnonymousView (snd (protect_pair (op_protect o))) 0 (off + len) 0 s) as [r s'] eqn:E.
      destruct (view_ok s0 s s' h _ _ _ _ _ r c Z64 T Hc ltac:(lia) E) as (K & Es & Er & T' & V). cbn [fst snd good_outcome].
      split; [|cbn [WinThreadInv.stage_ok]; rewrite Es; split; [eauto|]; destruct r as [ptr|e| | |]; try exact Logic.I; destruct V as (_ & _ & V); rewrite (vw_obj _ _ _ _ _ _ _ _ V); exact Dz].
      apply moved_plain; auto. cbn [wpiece]. destruct r as [ptr|e| | |]; try contradiction.
      + destruct V as (_ & _ & V). assert (Eg : off = off mod G) by (symmetry; apply Z.mod_small; lia).
        assert (V' : viewed t s s' c (snd (protect_pair (op_protect o))) (off - off) (if len + off =? 0 then sc_size c - (off - off) else len + off) ptr).
        { rewrite Z.sub_diag. replace (len + off) with (off + len) by lia. exact V. }
        destruct (view_made s s' c (op_protect o) off len ptr off V' Ew Eg ltac:(lia) Hl) as (VV & M & Fr).
        intros it [= <-]. cbn [i_thing i_obj i_priv]. pose proof (ev_next _ _ _ _ _ _ K). split; [|split; [lia|left; eexists; split; [reflexivity|auto]]].
        intros x [= <-]. split; [|split; [reflexivity|split; [reflexivity|]]].
        * refine (made_map_ok t Ht s s' {| v_map := {| m_ptr := ptr_add t ptr off; m_len := len |}; v_mut := mut; v_obj := ob; v_off := off;
            v_prot := op_protect o; v_anon := true; v_w := writable (op_protect o) |} off VV (op_protect o) eq_refl eq_refl _ _ _ _); cbn; [destruct (op_protect o); reflexivity|rewrite <- Eo; exact M|lia|].
          intros _. rewrite (vw_obj _ _ _ _ _ _ _ _ V). exact Sz.
        * intros b ->. left. exact Fr.
      + intros it [= <-]. cbn. split; [discriminate|]. pose proof (ev_next _ _ _ _ _ _ K). split; [lia|]. left. eexists. split; [reflexivity|auto].
    - (* NDone *)
      cbn [fst snd]. assert (B : item_next t s (snd (close_handle h s)) (wpiece t (NDone mut o h ob off len r)) (wpiece t (NDone mut o h ob off len r))).
      { cbn [wpiece]. apply (next_same t Ht none none); auto. apply close_keeps. }
      destruct r as [ptr|e| | |]; cbn [good_outcome]; [split|..]; try (apply moved_close; auto using next_none; fail). exact (proj2 St).
    - (* KCreate *)
      destruct St as (Ul & Lg & Uf & Lz). destruct (handle_new t RingAllocate None PageReadWrite full s) as [r s'] eqn:E.
      pose proof (new_anon_ok s0 s s' _ _ _ r W Uf T E) as N. destruct r as [h|e| | |]; try contradiction; cbn [wthen fst snd]; [|exact N].
      destruct N as (Nz & M & (c & C1 & C2 & C3 & C4) & Sz & Dz). split; [exact M|]. cbn [WinThreadInv.stage_ok]. unfold WinThreadInv.kfacts.
      split; [exact Ul|]. split; [exact Lg|]. split; [auto|]. split; [exact Uf|]. split; [|exact Dz]. eauto 6.
    - (* KReserve *)
      destruct (It _ eq_refl) as (_ & I2 & _). cbn [i_obj] in I2. pose proof St as (Ul & Lg & Lz & Uf & (c & C1 & C2 & C3 & C4) & Dz).
      destruct (win_call RingAllocate (virtual_alloc t full) s) as [r s'] eqn:E. apply win_call_run in E.
      destruct r as [pg|e| | |]; try destruct E as (z & E & _); pose proof (alloc_keeps t _ _ _ _ E) as K; pose proof (goesly_alloc t s0 full s T) as [T' _];
        rewrite E in T'; cbn [snd] in T'; apply alloc_spec in E as (_ & R & S1 & E); try contradiction; cbn [wthen fst snd wfailure].
      + destruct E as (A1 & A2 & A3 & A4 & A0 & A5 & A6 & A7 & A8 & A9 & A10). split.
        * split; auto.
          -- exists none. split; [exact K|intros b []].
          -- cbn [wpiece]. apply next_bare; auto. lia.
          -- left. auto.
          -- intros a n Ha. right. rewrite A5. unfold put. destruct (Z.eqb_spec a pg); [subst a; congruence|exact Ha].
          -- cbn. intros a [= <-]. left. exact A0.
        * cbn [WinThreadInv.stage_ok]. split; [apply (kfacts_keeps s); auto; rewrite A10, put_other by lia; reflexivity|].
          split; [apply (range_ok_iff t) in A2; lia|]. split; [exact A3|]. split; [|split; [rewrite A5; apply put_same|exact A1]].
          destruct (n_resv s0 pg) as [n0|] eqn:E0; [|reflexivity]. pose proof (td_old _ _ _ T _ _ E0). congruence.
      + split; [|cbn; split; [exists c; rewrite S1; exact C1|exact Logic.I]]. cbn [wpiece]. apply moved_wq; auto. apply next_bare; auto. rewrite (q_next _ _ (wq_w _ _ E)). lia.
    - (* KRelease *)
      destruct St as (Kf & Lp & Ap & Ro & Rs & Fp). destruct (It _ eq_refl) as (_ & I2 & _). cbn [i_obj] in I2. pose proof Kf as (_ & _ & _ & _ & (c & C1 & _) & _).
      destruct (no_result (virtual_free t pg) s) as [r s'] eqn:E. apply no_result_run in E as (r1 & E & Er).
      pose proof (free_keeps t s0 pg s _ _ T Ro E) as K. pose proof (free_goes t s0 pg s Ro T) as [T' Rk]. rewrite E in T', Rk. cbn [snd] in T', Rk.
      pose proof (free_spec _ _ _ _ _ E) as (_ & R & S1 & E').
      assert (M : r = Ret tt /\ w_obj (n_w s') = w_obj (n_w s) /\ w_next (n_w s') = w_next (n_w s)).
      { destruct r1 as [u|z| | |]; try contradiction; split; auto.
        - destruct E' as (n & _ & _ & _ & _ & N & O). auto.
        - destruct E' as [[V O N F S] _ _ _ _]. auto. }
      destruct M as (-> & Mo & Mn). cbn [wthen fst snd]. split; [|cbn [WinThreadInv.stage_ok]; split; [apply (kfacts_keeps s); auto; rewrite Mo; reflexivity|exact Lp]].
      split; auto.
      + exists none. split; [exact K|intros b []].
      + cbn [wpiece]. apply next_bare; auto. lia.
      + left. auto.
      + intros a n Ha. cbn. destruct (Z.eq_dec a pg) as [->|Na]; [left; reflexivity|right; exact (Rk _ _ Na Ha)].
      + cbn. discriminate.
    - (* KFirst *)
      destruct St as (Kf & Lp). destruct (It _ eq_refl) as (_ & I2 & I3). cbn [i_obj i_priv] in I2, I3. pose proof Kf as (Ul & Lg & Lz & Uf & (c & C1 & C2 & C3 & C4) & Dz).
      destruct (handle_view t h RingPrimary MapReadWrite 0 len pg s) as [r s'] eqn:E.
      destruct (view_ok s0 s s' h _ _ _ _ _ r c Z64 T C1 ltac:(lia) E) as (K & Es & Er & T' & V). destruct r as [a|e| | |]; try contradiction; cbn [fst snd].
      + destruct V as (_ & _ & V). rewrite (proj2 (Z.eqb_neq len 0) Lz) in V.
        destruct (half_made s s' c a len ob V C2 C3 I2 C4) as (Th & Hb & Fr).
        split; [|cbn [WinThreadInv.stage_ok]; split; [apply (kfacts_keeps s); auto; rewrite (vw_obj _ _ _ _ _ _ _ _ V); reflexivity|rewrite Hb, (vw_view _ _ _ _ _ _ _ _ V), put_same; split; [reflexivity|apply V]]].
        apply moved_plain; auto. intros it [= <-]. cbn [i_thing i_obj i_priv]. pose proof (ev_next _ _ _ _ _ _ K).
        split; [|split; [lia|left; eexists; split; [reflexivity|auto]]].
        intros x [= <-]. split; [exact Th|]. split; [reflexivity|]. split; [reflexivity|]. intros b Bb. cbn in Bb. rewrite Hb in Bb. subst b. left. exact Fr.
      + assert (M : moved s0 s s' (Some {| i_obj := ob; i_priv := true; i_thing := None |}) (Some {| i_obj := ob; i_priv := true; i_thing := None |}) (Some h) (Some h) None None).
        { apply moved_wq; auto. apply next_bare; auto. apply (ev_next _ _ _ _ _ _ K). }
        unfold kretry. destruct more; cbn [good_outcome]; (split; [exact M|]); cbn [WinThreadInv.stage_ok].
        * split; [exists c; rewrite Es; exact C1|exact Logic.I].
        * apply (kfacts_keeps s); auto. destruct V as [[V1 O1 N1 F1 S1] _ _ _ _]. rewrite O1. reflexivity.
    - (* KSecond *)
      destruct St as (Kf & Hv & Ag). destruct (It _ eq_refl) as (I1 & I2 & I3). cbn [i_obj i_priv i_thing] in I1, I2, I3. pose proof Kf as (Ul & Lg & Lz & Uf & (c & C1 & C2 & C3 & C4) & Dz).
      destruct (I1 _ eq_refl) as (Th & _ & _). pose proof (half_base pg len Ag) as Hb. rewrite Hb in Hv. unfold is_usize in Ul.
      pose proof Th as Mk. cbn in Mk. pose proof (mo_base _ _ _ Mk) as Mb. pose proof (mo_high _ _ _ Mk) as Mh. cbn [v_map m_ptr m_len half] in Mb, Mh. rewrite Hb in Mb.
      assert (Ep : ptr_add t pg len = pg + len) by (unfold ptr_add, as_usize; apply Z.mod_small; lia). rewrite Ep.
      destruct (handle_view t h RingSecondary MapReadWrite 0 len (pg + len) s) as [r s'] eqn:E.
      destruct (view_ok s0 s s' h _ _ _ _ _ r c Z64 T C1 ltac:(lia) E) as (K & Es & Er & T' & V). destruct r as [a|e| | |]; try contradiction; cbn [fst snd].
      + destruct V as (Ea & _ & V). specialize (Ea ltac:(lia)). subst a. rewrite (proj2 (Z.eqb_neq len 0) Lz) in V.
        destruct (half_full s s' c pg len ob Th Hv Ag Lg V C2 C3) as (n & Rk).
        split; [|cbn [WinThreadInv.stage_ok]; split; [exists c; rewrite Es; exact C1|rewrite (vw_obj _ _ _ _ _ _ _ _ V); exact Dz]].
        apply moved_plain; auto. intros it [= <-]. cbn [i_thing i_obj i_priv]. pose proof (ev_next _ _ _ _ _ _ K).
        split; [|split; [lia|left; eexists; split; [reflexivity|auto]]].
        intros x [= <-]. split; [exists n; exact Rk|]. split; [reflexivity|]. split; [reflexivity|]. intros b [->| ->]; cbn [ra_ptr ra_len].
        * right. eexists _, _. split; [reflexivity|]. split; [reflexivity|]. cbn. symmetry. exact Hb.
        * left. apply V.
      + split; [|cbn [WinThreadInv.stage_ok]; split; [apply (kfacts_keeps s); auto; destruct V as [[V1 O1 N1 F1 S1] _ _ _ _]; rewrite O1; reflexivity|rewrite Hb, (wq_view _ _ V); auto]].
        apply moved_plain; auto. apply (next_same t Ht none none); auto.
    - (* KUndo *)
      destruct St as (Kf & Hv & Ag). destruct (It _ eq_refl) as (I1 & I2 & I3). cbn [i_obj i_priv i_thing] in I1, I2, I3. pose proof Kf as (Ul & Lg & Lz & Uf & (c & C1 & C2 & C3 & C4) & Dz).
      pose proof (half_base pg len Ag) as Hb.
      destruct (no_result (unmap_view t pg) s) as [r s'] eqn:E. apply no_result_run in E as (r1 & E & Er).
      destruct (unmap_ok s0 s s' pg r1 T E) as (Ev & Es & Ers & Eo & En & T' & Hr). assert (r = Ret tt) by (destruct r1; auto; contradiction). subst r. cbn [fst snd].
      assert (M : moved s0 s s' (Some {| i_obj := ob; i_priv := true; i_thing := Some (half pg len ob) |}) (Some {| i_obj := ob; i_priv := true; i_thing := None |}) (Some h) (Some h) None None).
      { split; auto.
        - exists (fun x => x = pg). split; [exact Ev|]. intros b ->. eexists _, _. split; [reflexivity|]. split; [reflexivity|]. cbn. symmetry. exact Hb.
        - apply next_bare; auto. lia.
        - left. auto.
        - intros a n Ha. right. rewrite Ers. exact Ha. }
      unfold kretry. destruct more; cbn [good_outcome]; (split; [exact M|]); cbn [WinThreadInv.stage_ok].
      + split; [exists c; rewrite Es; exact C1|exact Logic.I].
      + apply (kfacts_keeps s); auto. rewrite Eo. reflexivity.
    - (* KDone *)
      cbn [fst snd]. assert (B : item_next t s (snd (close_handle h s)) (wpiece t (KDone inf len h ob r)) (wpiece t (KDone inf len h ob r))).
      { cbn [wpiece]. apply (next_same t Ht none none); auto. apply close_keeps. }
      destruct r as [pg|e| | |]; cbn [good_outcome]; [split|..]; try (apply moved_close; auto using next_none; fail). exact (proj2 St).
    - (* DSecond *)
      destruct (It _ eq_refl) as (I1 & I2 & I3). cbn [i_obj i_priv i_thing] in I1, I2, I3. destruct (I1 _ eq_refl) as ((n & Rk) & _).
      pose proof (ro_n _ _ _ _ _ Rk). pose proof (ro_len _ _ _ _ _ Rk) as Rl. pose proof (ro_low _ _ _ _ _ Rk). pose proof (ro_high _ _ _ _ _ Rk).
      assert (Hl : 0 < ra_len r) by nia.
      assert (Ep : ptr_add t (ra_ptr r) (ra_len r) = ra_ptr r + ra_len r) by (unfold ptr_add, as_usize; apply Z.mod_small; lia). rewrite Ep.
      destruct (win_call RingDeallocate (unmap_view t (ra_ptr r + ra_len r)) s) as [x s'] eqn:E. apply win_call_run in E.
      assert (Bx : forall b, b = ra_ptr r + ra_len r -> bases_item t (Some {| i_obj := ob; i_priv := true; i_thing := Some (TRing r ob) |}) b).
      { intros b ->. eexists _, _. split; [reflexivity|]. split; [reflexivity|]. right. reflexivity. }
      destruct x as [u|e| | |]; try destruct E as (z & E & _); destruct (unmap_ok s0 s s' _ _ T E) as (Ev & Es & Ers & Eo & En & T' & Hr); try contradiction; cbn [fst snd].
      + destruct (ring_half s s' r ob n Rk So (or_intror (ex_intro _ _ (conj eq_refl Ev))) (I3 eq_refl)) as (Th & Hb).
        split; [|exact Hb]. split; auto.
        * eexists. split; [exact Ev|exact Bx].
        *          intros it [= <-]. cbn [i_thing i_obj i_priv]. split; [|split; [lia|left; eexists; split; [reflexivity|auto]]].
          intros y [= <-]. split; [exact Th|]. split; [reflexivity|]. split; [reflexivity|]. intros b Bb. cbn in Bb. rewrite Hb in Bb. subst b.
          right. eexists _, _. split; [reflexivity|]. split; [reflexivity|]. left. reflexivity.
        * left. auto.
        * intros a m Ha. right. rewrite Ers. exact Ha.
      + apply moved_wq; auto using next_none.
    - (* DFirst *)
      destruct (no_result (unmap_view t (ra_ptr r)) s) as [x s'] eqn:E. apply no_result_run in E as (r1 & E & Er).
      destruct (unmap_ok s0 s s' _ r1 T E) as (Ev & Es & Ers & Eo & En & T' & Hr). assert (x = Ret tt) by (destruct r1; auto; contradiction). subst x. cbn [fst snd good_outcome].
      split; auto.
      + eexists. split; [exact Ev|]. intros b ->. eexists _, _. split; [reflexivity|]. split; [reflexivity|]. cbn. symmetry. exact St.
      + apply next_none.
      + left. auto.
      + intros a m Ha. right. rewrite Ers. exact Ha.
  Qed.
End Adv.
