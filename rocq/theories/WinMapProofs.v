(** Proofs about the mapping API on Windows. *)
From Coq Require Import Lia.
From Verif Require Import Base Spec ErrorModel SizeModel OsModel MapModel MapSpec RingMapModel RingMapSpec SizeProofs OsProofs
  MapProofs MapCreate MapOps MirrorProofs RingMapClaims WinModel WinSpec WinProofs WinClaims WinCalls WinMapModel WinMapSpec WinSpace WinKeep.

Lemma posix_of t : good_target t -> posix_target (as_posix t).
Proof. intros (A & B & C & D & E & F). split; [|reflexivity]. unfold good_target. cbn. repeat split; auto; lia. Qed.

Section Maps.
  Variable t : target.
  Hypothesis Ht : good_target t.
  Notation P := (t_page t).
  Notation G := (t_alloc t).
  Notation q := (as_posix t).
  Let HP : 0 < P.
  Proof. exact (pow2_pos _ (proj1 (proj2 Ht))). Qed.
  Let HG : 0 < G.
  Proof. exact (pow2_pos _ (proj1 (proj2 (proj2 Ht)))). Qed.
  Let Hq : posix_target q.
  Proof. exact (posix_of t Ht). Qed.
  Let HB : 0 < t_bits t.
  Proof. destruct Ht as [[E|E] _]; lia. Qed.
  Let HGW : G < 2 ^ t_bits t.
  Proof. destruct Ht as ([E|E] & _ & _ & _ & H & _); rewrite E; lia. Qed.
  Let HPG : P <= G.
  Proof. apply Ht. Qed.

  (** ** Opening *)
  Lemma open_keeps path wr creat excl trunc s fd w' : wf (n_w s) -> sys_open t path wr creat excl trunc (n_w s) = (Ret fd, w') ->
    keeps t s (with_w s w').
  Proof.
    intros W H. change (sys_open q path wr creat excl trunc (n_w s) = (Ret fd, w')) in H.
    pose proof (proj1 (proj2 (open_extends q _ _ _ _ _ _ _ _ W H))) as W'.
    apply (open_spec q _ _ _ _ _ _ _ _ W) in H as (Hf & Hn & ob & F & S & S' & M).
    assert (NM : forall o, named w' o -> named (n_w s) o \/ o = ob).
    { intros o [(fd' & f & X & <-)|(p & X)].
      - rewrite F in X. unfold put in X. destruct (fd' =? fd); [injection X as <-; auto|left; left; eauto].
      - destruct (Z.eq_dec p path) as [->|N]; [right; congruence|]. rewrite S' in X by exact N. left. right. eauto. }
    destruct (w_fs (n_w s) path) as [o|] eqn:Ep.
    - destruct M as (-> & _ & w1 & [V N _ _ O D] & Eo & Ev & En & _).
      assert (No : named (n_w s) o) by (right; eauto).
      apply ev_steady; cbn; auto; rewrite ?Ev, ?Eo, ?En.
      + intros p e He. specialize (V p). rewrite He in V. destruct (w_vm w1 p) as [e'|]; [|contradiction].
        destruct V as [V C]. exists e'. split; [reflexivity|]. split; [apply same_place_kept; tauto|].
        right. destruct C as [C|(C & -> & Es)]; auto.
      + lia.
      + intros o' _ X. rewrite O; [reflexivity|]. intros ->. contradiction.
      + intros o' _ X. right. rewrite O; [reflexivity|]. intros ->. contradiction.
      + intros o' X. apply NM in X as [X| ->]; auto.
    - destruct M as (_ & -> & En & Ev & Eo). apply ev_steady; cbn; auto; rewrite ?Ev, ?Eo, ?En.
      + intros p e He. exists e. split; [exact He|]. split; [apply kept_refl|auto].
      + lia.
      + intros o Ho _. rewrite put_other by lia. reflexivity.
      + intros o Ho _. right. rewrite put_other by lia. reflexivity.
      + intros o X. apply NM in X as [X| ->]; [auto|right; lia].
  Qed.
  Lemma with_w_quiet s w' : quiet (n_w s) w' -> wq s (with_w s w').
  Proof. intros Q. split; try reflexivity. exact Q. Qed.

  Lemma file_open_keeps oo path s r w' : wf (n_w s) -> file_open t oo path (n_w s) = (r, w') -> keeps t s (with_w s w').
  Proof.
    intros W H. apply file_open_spec in H. destruct r as [fd|e| | |]; try contradiction.
    - destruct H as [_ H]. exact (open_keeps _ _ _ _ _ _ _ _ W H).
    - apply ev_wq, with_w_quiet, H.
  Qed.

  (** ** map_if *)
  Definition wmap_stage (o : options) (fd flen : Z) : WT error (option mapping) :=
    let off := op_offset o in
    if flen <? off then wret None
    else
      wdo* max <- wout (usub t flen off);
      match extent_len (op_len o) max with
      | None => wret None
      | Some len =>
        wdo* mapoff <- wout (size_truncate t (size_alloc t) off);
        wdo* d <- wout (usub t off mapoff);
        wdo* maplen <- wout (uadd t len d);
        wdo* ptr <- win_map_file t fd mapoff maplen (op_protect o);
        wret (Some {| m_ptr := ptr_add t ptr d; m_len := len |})
      end.
  Lemma wmap_if_stages o fd s : wmap_if t o fd s = wbind (lift (file_stage t o fd)) (wmap_stage o fd) s.
  Proof.
    unfold wmap_if, wbind, lift, file_stage, sbind.
    destruct (io_call (file_len fd) (n_w s)) as [[l|e| | |] w1]; try reflexivity. unfold sret. cbn [n_w with_w].
    destruct (op_truncate o && (0 <? as_usize t l)); [destruct (resize_to t fd 0 w1) as [[l2|e| | |] w2]; try reflexivity|];
      cbn [n_w with_w]; destruct (op_resize o) as [|z|z|z]; try reflexivity;
      repeat match goal with
             | |- context [if ?b then _ else _] => destruct b
             | |- context [resize_to t fd ?z ?w] => destruct (resize_to t fd z w) as [[?|?| | |] ?]
             end; reflexivity.
  Qed.

  Lemma map_base_eq b d len : b mod G = 0 -> 0 <= d < G -> map_base t {| m_ptr := b + d; m_len := len |} = b.
  Proof.
    intros A B. unfold map_base. cbn. pose proof (Z.div_mod b G ltac:(lia)) as D.
    replace (b + d) with (d + (b / G) * G) by lia. rewrite Z.div_add, Z.div_small by lia. lia.
  Qed.

  Lemma wmap_stage_spec o fd f L s r s' : wf (n_w s) -> options_ok t o -> w_fd (n_w s) fd = Some f -> is_usize t L ->
    wmap_stage o fd L s = (r, s') -> keeps t s s' /\
    match r with
    | Ret None => s' = s /\ out_of_file (op_len o) (op_offset o) L
    | Ret (Some m) => ~ out_of_file (op_len o) (op_offset o) L /\ right_len (op_len o) (op_offset o) L (m_len m) /\
        (op_protect o = ReadWrite -> fd_w f = true) /\ same_rest s s' /\ w_next (n_w s') = w_next (n_w s) /\
        let d := op_offset o mod G in
        let V := if m_len m + d =? 0 then o_size (w_obj (n_w s) (fd_obj f)) - op_offset o else m_len m + d in
        op_offset o - d + V <= o_size (w_obj (n_w s) (fd_obj f)) /\
        map_made t s s' m (fd_obj f) (op_offset o) V (op_protect o)
    | Err e => ~ out_of_file (op_len o) (op_offset o) L /\ same_space s s' /\ same_rest s s' /\ w_next (n_w s') = w_next (n_w s) /\
        (e_op e = MapFileHandle \/ e_op e = MapFileView)
    | _ => False
    end.
  Proof.
    intros W (_ & Ol & Oo) Hf HL H. unfold wmap_stage in H. cbv zeta in H. set (off := op_offset o) in *.
    destruct (Z.ltb_spec L off) as [Lt|Ge].
    { injection H as <- <-. split; [apply ev_refl|]. split; [reflexivity|]. left. exact Lt. }
    unfold is_usize in HL, Oo. unfold wbind at 1, wout at 1 in H. unfold usub at 1 in H. rewrite wrap_in in H by lia.
    destruct (extent_len (op_len o) (L - off)) as [len|] eqn:El.
    2:{ injection H as <- <-. split; [apply ev_refl|]. split; [reflexivity|]. right. unfold extent_len in El.
        destruct (op_len o) as [|n|n|n]; try discriminate El; exists n; destruct (Z.ltb_spec (L - off) n); try discriminate El; (split; [auto|lia]). }
    assert (Len : 0 <= len <= L - off /\ right_len (op_len o) off L len /\ ~ out_of_file (op_len o) off L).
    { unfold extent_len in El. unfold out_of_file, right_len.
      destruct (op_len o) as [|n|n|n]; cbn [extent_ok] in Ol; unfold is_usize in Ol;
        try destruct (Z.ltb_spec (L - off) n); try discriminate El; injection El as <-; (split; [lia|]); (split; [lia|]);
        intros [X|(k & [X|X] & Y)]; try lia; try discriminate X; injection X as <-; lia. }
    destruct Len as (Len & RL & NO).
    pose proof (Z.div_mod off G ltac:(lia)) as D1. pose proof (Z.mod_pos_bound off G HG) as D2.
    unfold wbind at 1, wout at 1 in H. unfold size_alloc in H.
    rewrite (size_truncate_eq t HB G (proj1 (proj2 (proj2 Ht))) HGW) in H by (split; lia).
    assert (Dv : 0 <= G * (off / G)). { pose proof (Z.div_pos off G ltac:(lia) ltac:(lia)). nia. }
    unfold wbind at 1, wout at 1 in H. unfold usub at 1 in H. rewrite wrap_in in H by lia.
    replace (off - G * (off / G)) with (off mod G) in H by lia.
    unfold wbind at 1, wout at 1 in H. unfold uadd at 1 in H. rewrite wrap_in in H by lia.
    assert (Um : is_usize t (G * (off / G))) by (split; lia).
    apply wbind_run in H as [(a & s1 & E & H)|[(e & E & ->)|[(E & ->)|[(E & ->)|(E & ->)]]]];
      pose proof (map_file_keeps t Ht _ _ _ _ _ _ _ W Um E) as K;
      apply (win_map_file_spec t Ht _ _ _ _ _ _ _ Um) in E as (l & Lc & SR & Nx & E); try contradiction.
    - destruct E as (f' & h & _ & Ef & Wr & Al & E). cbv zeta in E. destruct E as [Fit V]. rewrite Hf in Ef. injection Ef as <-.
      assert (X : r = Ret (Some {| m_ptr := ptr_add t a (off mod G); m_len := len |}) /\ s' = s1) by (injection H as <- <-; auto).
      destruct X as [-> ->]. clear H. cbn [m_len]. split; [exact K|].
      pose proof V as (V1 & V2 & V3 & V4 & _).
      assert (EV : forall b : bool, (if b then o_size (w_obj (n_w s) (fd_obj f)) - G * (off / G) else len + off mod G) =
                   (if b then o_size (w_obj (n_w s) (fd_obj f)) - (off - off mod G) else len + off mod G)).
      { intros []; lia. }
      assert (PA : ptr_add t a (off mod G) = a + off mod G).
      { unfold ptr_add, as_usize. apply Z.mod_small. destruct (Z.eqb_spec (len + off mod G) 0); lia. }
      rewrite PA. split; [exact NO|]. split; [exact RL|]. split; [exact Wr|]. split; [exact SR|]. split; [exact Nx|].
      assert (EV2 : (if len + off mod G =? 0 then o_size (w_obj (n_w s) (fd_obj f)) - G * (off / G) else len + off mod G) =
                    (if len + off mod G =? 0 then o_size (w_obj (n_w s) (fd_obj f)) - off else len + off mod G)).
      { destruct (Z.eqb_spec (len + off mod G) 0); [|reflexivity]. assert (off mod G = 0) by lia. lia. }
      rewrite EV2 in *. split; [lia|]. split; cbn [m_ptr m_len].
      + rewrite map_base_eq by (assumption || lia). replace (off - off mod G) with (G * (off / G)) by lia. exact V.
      + rewrite map_base_eq by (assumption || lia). reflexivity.
      + lia.
      + lia.
      + destruct (Z.eqb_spec (len + off mod G) 0); lia.
    - destruct E as (SS & op & x & -> & Op). split; [exact K|]. split; [exact NO|]. split; [exact SS|]. split; [exact SR|]. split; [exact Nx|].
      destruct Op as [[-> _]|[-> _]]; auto.
  Qed.

  Lemma wmap_if_spec o fd s r s' : wf (n_w s) -> options_ok t o -> wmap_if t o fd s = (r, s') ->
    keeps t s s' /\
    match w_fd (n_w s) fd with
    | None => exists e, r = Err e /\ e_op e = MapFile /\ same_space s s' /\ same_rest s s' /\ w_next (n_w s') = w_next (n_w s)
    | Some f =>
      exists w1, file_done q o (fd_obj f) (n_w s) w1 /\ let s1 := with_w s w1 in
      match r with
      | Ret None => exists L, s' = s1 /\ file_right q o (fd_obj f) (n_w s) w1 L /\ out_of_file (op_len o) (op_offset o) L
      | Ret (Some m) => exists L, file_right q o (fd_obj f) (n_w s) w1 L /\ ~ out_of_file (op_len o) (op_offset o) L /\
          right_len (op_len o) (op_offset o) L (m_len m) /\
          (op_protect o = ReadWrite -> fd_w f = true) /\ same_rest s1 s' /\ w_next (n_w s') = w_next (n_w s) /\
          let d := op_offset o mod G in
          let V := if m_len m + d =? 0 then o_size (w_obj w1 (fd_obj f)) - op_offset o else m_len m + d in
          op_offset o - d + V <= o_size (w_obj w1 (fd_obj f)) /\
          map_made t s1 s' m (fd_obj f) (op_offset o) V (op_protect o)
      | Err e => same_space s1 s' /\ same_rest s1 s' /\ w_next (n_w s') = w_next (n_w s) /\
          (e_op e = MapFile \/
           exists L, file_right q o (fd_obj f) (n_w s) w1 L /\ ~ out_of_file (op_len o) (op_offset o) L /\
             (e_op e = MapFileHandle \/ e_op e = MapFileView))
      | _ => False
      end
    end.
  Proof.
    intros W O H. rewrite wmap_if_stages in H.
    assert (Hl : forall A (m : ST error A) r0 s0, lift m s = (r0, s0) -> exists w0, m (n_w s) = (r0, w0) /\ s0 = with_w s w0).
    { intros A m r0 s0. unfold lift. destruct (m (n_w s)) as [rr ww]. intros X. injection X as <- <-. eauto. }
    destruct (w_fd (n_w s) fd) as [f|] eqn:Ef.
    - assert (FD : forall r0 w0, file_stage t o fd (n_w s) = (r0, w0) -> file_done q o (fd_obj f) (n_w s) w0 /\
        match r0 with Ret L => file_right q o (fd_obj f) (n_w s) w0 L | Err e => e_op e = MapFile | _ => False end).
      { intros r0 w0 E. change (file_stage q o fd (n_w s) = (r0, w0)) in E.
        pose proof (file_stage_spec q Hq o fd (n_w s) f r0 w0 W O Ef E) as X. cbv zeta in X.
        destruct X as (T & Z & Sh & X). split.
        - split; try assumption. exact (wf_touched q Hq _ _ _ W T Z).
        - destruct r0 as [L|e| | |]; try contradiction; [|exact X].
          destruct X as (X1 & X2 & X3 & X4 & _ & X5). split; try assumption. intros U. specialize (X5 U). unfold as_usize in X5.
          rewrite (Z.mod_small _ _ U) in X5. exact X5. }
      assert (KD : forall w0, file_done q o (fd_obj f) (n_w s) w0 -> keeps t s (with_w s w0)).
      { intros w0 [T W0 _ _]. apply (ev_touched t (fd_obj f)); auto. left. eauto. }
      apply wbind_run in H as [(L & s1 & E & H)|[(e & E & ->)|[(E & ->)|[(E & ->)|(E & ->)]]]];
        apply Hl in E as (w1 & E & ->); apply FD in E as [Fd E]; try contradiction.
      + pose proof (KD _ Fd) as K1.
        assert (Ef1 : w_fd (n_w (with_w s w1)) fd = Some f) by (cbn; rewrite (tc_fd _ _ _ (fdn_touched _ _ _ _ _ Fd)); exact Ef).
        assert (Nx : w_next w1 = w_next (n_w s)) by exact (tc_next _ _ _ (fdn_touched _ _ _ _ _ Fd)).
        destruct (wmap_stage_spec o fd f L (with_w s w1) r s' (ev_wf _ _ _ _ _ _ K1 W) O Ef1 (fr_usize _ _ _ _ _ _ E) H) as [K2 M].
        split; [exact (ev_trans t _ _ _ _ _ W K1 K2)|]. exists w1. split; [exact Fd|]. cbv zeta.
        destruct r as [[m|]|e| | |]; try contradiction.
        * exists L. destruct M as (M1 & M2 & M3 & M4 & M5 & M6). split; [exact E|]. split; [exact M1|]. split; [exact M2|]. split; [exact M3|].
          split; [exact M4|]. split; [cbn in M5; lia|exact M6].
        * exists L. destruct M as [-> M]. auto.
        * destruct M as (M1 & M2 & M3 & M4 & M5). split; [exact M2|]. split; [exact M3|]. split; [cbn in M4; lia|]. right. eauto.
      + split; [exact (KD _ Fd)|]. exists w1. split; [exact Fd|]. cbv zeta. split; [split; reflexivity|]. split; [split; reflexivity|].
        split; [exact (tc_next _ _ _ (fdn_touched _ _ _ _ _ Fd))|]. auto.
    - assert (Q : exists e w1, file_stage t o fd (n_w s) = (Err e, w1) /\ e_op e = MapFile /\ quiet (n_w s) w1).
      { unfold file_stage, sbind, io_call, file_len.
        destruct (sys_fstat fd (n_w s)) as [r1 w2] eqn:Es. apply fstat_spec in Es as [Q C].
        destruct r1 as [n|e| | |]; try contradiction C.
        - destruct C as (f & Ef' & _). congruence.
        - eexists _, w2. split; [reflexivity|]. split; [reflexivity|exact Q]. }
      destruct Q as (e & w1 & E & Eo & Q). unfold wbind, lift in H. rewrite E in H.
      assert (X : r = Err e /\ s' = with_w s w1) by (injection H as <- <-; auto). destruct X as [-> ->].
      pose proof (with_w_quiet _ _ Q) as Q'. destruct (wq_same _ _ Q') as [Q1 Q2]. split; [apply ev_wq, Q'|].
      exists e. split; [reflexivity|]. split; [exact Eo|]. split; [exact Q1|]. split; [exact Q2|]. exact (q_next _ _ Q).
  Qed.
End Maps.
