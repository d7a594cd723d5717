(** Making, flushing and dropping maps on Windows: what the theorems of
    PropertiesWinMap.v rest on. *)
From Coq Require Import Lia.
From Verif Require Import Base Spec ErrorModel SizeModel OsModel MapModel MapSpec RingMapModel RingMapSpec SizeProofs OsProofs
  MapProofs MapCreate MapOps MapClaims5 MirrorProofs RingMapClaims WinModel WinSpec WinProofs WinClaims WinCalls WinMapModel WinMapSpec WinSpace WinKeep WinMapProofs WinAlloc WinThings WinHist WinLeak WinMapClaims.

Section Claims.
  Variable t : target.
  Hypothesis Ht : good_target t.
  Notation P := (t_page t).
  Notation G := (t_alloc t).
  Notation q := (as_posix t).
  Let HP : 0 < P.
  Proof. exact (pow2_pos _ (proj1 (proj2 Ht))). Qed.
  Let HG : 0 < G.
  Proof. exact (pow2_pos _ (proj1 (proj2 (proj2 Ht)))). Qed.
  Let Hq : posix_target q.
  Proof. exact (posix_of t Ht). Qed.

  (** ** Making file maps *)
  Section FileMap.
    Variables (o : options) (fd : Z) (f : fdent) (s s' : win) (r : out error (option mapping)).
    Hypotheses (W : wf (n_w s)) (O : options_ok t o) (Hf : w_fd (n_w s) fd = Some f) (H : wmap_if t o fd s = (r, s')).
    Let ob := fd_obj f.
    Let L := final_len (op_truncate o) (op_resize o) (o_size (w_obj (n_w s) ob) mod 2 ^ t_bits t).

    Lemma wextent :
      match r with
      | Ret None => out_of_file (op_len o) (op_offset o) L
      | Ret (Some m) => ~ out_of_file (op_len o) (op_offset o) L /\ right_len (op_len o) (op_offset o) L (m_len m)
      | Err e => e_op e = MapFile \/ (~ out_of_file (op_len o) (op_offset o) L /\ (e_op e = MapFileHandle \/ e_op e = MapFileView))
      | _ => False
      end.
    Proof.
      pose proof (wmap_if_spec t Ht o fd s r s' W O H) as [_ M]. rewrite Hf in M. destruct M as (w1 & FD & M). cbv zeta in M.
      assert (EL : forall L', file_right q o (fd_obj f) (n_w s) w1 L' -> L' = L) by (intros L' FR; exact (fr_len _ _ _ _ _ _ FR)).
      destruct r as [[m|]|e| | |]; try contradiction M.
      - destruct M as (L' & FR & N & R & _). rewrite (EL _ FR) in *. auto.
      - destruct M as (L' & _ & FR & N). rewrite (EL _ FR) in *. auto.
      - destruct M as (_ & _ & _ & [M|(L' & FR & N & M)]); [auto|]. rewrite (EL _ FR) in *. auto.
    Qed.

    Lemma old_obj w1 : file_done q o (fd_obj f) (n_w s) w1 -> fd_obj f < w_next w1.
    Proof. intros FD. rewrite (tc_next _ _ _ (fdn_touched _ _ _ _ _ FD)). exact (proj2 (wf_fd _ W _ _ Hf)). Qed.

    Lemma wfile_len : (forall e, r <> Err e) -> is_usize t (o_size (w_obj (n_w s) ob)) ->
      o_size (w_obj (n_w s') ob) = final_len (op_truncate o) (op_resize o) (o_size (w_obj (n_w s) ob)) /\
      (forall i, 0 <= i < o_size (w_obj (n_w s') ob) -> o_data (w_obj (n_w s') ob) i =
         if i <? kept_len (op_truncate o) (op_resize o) (o_size (w_obj (n_w s) ob)) then o_data (w_obj (n_w s) ob) i else 0).
    Proof.
      intros Nr U. pose proof (wmap_if_spec t Ht o fd s r s' W O H) as [_ M]. rewrite Hf in M. destruct M as (w1 & FD & M). cbv zeta in M. fold ob in FD, M.
      assert (X : exists L', file_right q o ob (n_w s) w1 L' /\ w_obj (n_w s') ob = w_obj w1 ob).
      { destruct r as [[m|]|e| | |]; try contradiction M.
        - destruct M as (L' & FR & _ & _ & _ & R & _). exists L'. split; [exact FR|]. exact (sr_obj _ _ R ob (old_obj w1 FD)).
        - destruct M as (L' & -> & FR & _). eauto.
        - elim (Nr e). reflexivity. }
      destruct X as (L' & FR & Ob). rewrite Ob, (fr_eq _ _ _ _ _ _ FR U).
      pose proof (fr_len _ _ _ _ _ _ FR) as EL. unfold as_usize in EL. cbn [t_bits as_posix] in EL. rewrite Z.mod_small in EL by exact U.
      split; [exact EL|]. intros i Hi. apply (fr_data _ _ _ _ _ _ FR U). lia.
    Qed.

    Lemma wothers o' : o' < w_next (n_w s) -> o' <> ob -> w_obj (n_w s') o' = w_obj (n_w s) o'.
    Proof.
      intros Lt No. pose proof (wmap_if_spec t Ht o fd s r s' W O H) as [_ M]. rewrite Hf in M. destruct M as (w1 & FD & M). cbv zeta in M. fold ob in FD, M.
      pose proof (fdn_touched _ _ _ _ _ FD) as T. rewrite <- (tc_obj _ _ _ T o' No).
      assert (Lt1 : o' < w_next w1) by (rewrite (tc_next _ _ _ T); exact Lt).
      destruct r as [[m|]|e| | |]; try contradiction M.
      - destruct M as (L' & _ & _ & _ & _ & R & _). exact (sr_obj _ _ R o' Lt1).
      - destruct M as (L' & -> & _). reflexivity.
      - destruct M as (_ & R & _). exact (sr_obj _ _ R o' Lt1).
    Qed.

    (** The address space: what is mapped where, and the views. *)
    Lemma wspace :
      (forall h, n_sec s' h = n_sec s h) /\ (forall a, n_resv s' a = n_resv s a) /\
      match r with
      | Ret (Some m) => exists n, 0 < n /\
          (forall a, n_view s' a = if a =? map_base t m then Some n else n_view s a) /\
          (forall p, in_view t (map_base t m) n p -> w_vm (n_w s) p = None) /\
          (forall p, w_vm (n_w s') p <> None <-> in_view t (map_base t m) n p \/ w_vm (n_w s) p <> None) /\
          map_base t m <= m_ptr m /\ m_ptr m + m_len m <= map_base t m + P * n /\
          m_ptr m mod G = op_offset o mod G
      | _ => (forall a, n_view s' a = n_view s a) /\ (forall p, w_vm (n_w s') p <> None <-> w_vm (n_w s) p <> None)
      end.
    Proof.
      pose proof (wmap_if_spec t Ht o fd s r s' W O H) as [_ M]. rewrite Hf in M. destruct M as (w1 & FD & M). cbv zeta in M. fold ob in FD, M.
      pose proof (fdn_touched _ _ _ _ _ FD) as T.
      assert (VM : forall p, w_vm w1 p <> None <-> w_vm (n_w s) p <> None).
      { intros p. pose proof (tc_vm _ _ _ T p) as X. destruct (w_vm (n_w s) p), (w_vm w1 p); try contradiction; split; congruence. }
      destruct r as [[m|]|e| | |]; try contradiction M.
      - destruct M as (L' & _ & _ & _ & _ & R & _ & _ & Md). split; [exact (sr_sec _ _ R)|].
        pose proof (made_in t Ht _ _ _ _ _ _ _ Md) as (I1 & I2 & I3 & I4 & I5 & I6 & I7 & I8).
        destruct Md as [(V0 & Vg & Vl & Vh & [C1 C2 C3 C4 C5] & Vs) Mp Ml Mo Mf]. cbn [with_w n_w n_view n_resv] in *.
        set (V := if m_len m + op_offset o mod G =? 0 then _ else _) in *.
        split; [exact C5|]. exists (npages t V). pose proof (npages_bounds t HP V) as NB. split; [nia|].
        split. { intros a. destruct (Z.eqb_spec a (map_base t m)) as [->|N]; [exact C1|exact (C4 a N)]. }
        split. { intros p Hp. specialize (C2 p Hp). destruct (w_vm (n_w s) p) eqn:E; [|reflexivity].
                 exfalso. apply (proj2 (VM p)); [congruence|exact C2]. }
        split. { intros p. destruct (Z_le_dec (map_base t m / P) p) as [L1|L1]; [destruct (Z_lt_dec p (map_base t m / P + npages t V)) as [L2|L2]|].
          - destruct (Vs p (conj L1 L2)) as (e & -> & _). unfold in_view. split; [intros _; left; lia|discriminate].
          - rewrite C3 by lia. rewrite VM. unfold in_view. split; [auto|]. intros [X|X]; [lia|exact X].
          - rewrite C3 by lia. rewrite VM. unfold in_view. split; [auto|]. intros [X|X]; [lia|exact X]. }
        pose proof (Z.mod_pos_bound (op_offset o) G HG). split; [lia|]. split; [lia|].
        rewrite Mp. rewrite <- Z.add_mod_idemp_l, Vg by lia. rewrite Z.add_0_l, Z.mod_mod by lia. reflexivity.
      - destruct M as (L' & -> & _). cbn. auto.
      - destruct M as ([S1 S2 S3] & R & _). split; [exact (sr_sec _ _ R)|]. split; [exact S3|]. split; [exact S2|].
        intros p. rewrite S1. apply VM.
    Qed.

    Lemma wshows m : r = Ret (Some m) -> forall i, 0 <= i < m_len m ->
      op_offset o + i < o_size (w_obj (n_w s') ob) /\
      wget t m i s' = (Ret (o_data (w_obj (n_w s') ob) (op_offset o + i)), s').
    Proof.
      intros Er i Hi. pose proof (wmap_if_spec t Ht o fd s r s' W O H) as [_ M]. rewrite Hf, Er in M. cbv zeta in M.
      destruct M as (w1 & FD & L' & FR & N & R & _ & SR & _ & _ & Md). fold ob in FD, FR, Md.
      assert (In : op_offset o + i < o_size (w_obj (n_w s') ob)).
      { rewrite (sr_obj _ _ SR ob (old_obj w1 FD)). cbn. pose proof (fr_le _ _ _ _ _ _ FR) as LL. pose proof (in_file o L' (m_len m) N R). lia. }
      split; [exact In|].
      assert (C : 0 < m_ptr m mod P + m_len m) by (pose proof (Z.mod_pos_bound (m_ptr m) P HP); lia).
      destruct (made_backed t Ht _ _ _ _ _ _ _ Md C) as [B Fr].
      pose proof (get_spec q Hq _ _ _ _ _ _ B i Hi In) as E. change (map_get q m i (n_w s')) with (map_get t m i (n_w s')) in E.
      unfold wget, lift. rewrite E.
      destruct (byte_page q Hq _ _ _ _ _ _ B i Hi) as (_ & Ow & _).
      destruct (byte_entry q Hq _ _ _ _ _ _ B i Hi) as (e & Ee & _). unfold shown. rewrite Ee. change (t_page q) with P in *.
      rewrite (proj1 (proj2 (Fr _ e Ow Ee))). destruct s'; reflexivity.
    Qed.

    (** Stores are possible at once exactly with [ReadWrite] and [ReadCopy]. *)
    Lemma wstores m : r = Ret (Some m) -> (op_protect o = ReadWrite -> fd_w f = true) /\
      forall i b, 0 <= i < m_len m -> fst (wset t m i b s') = (if prot_writes (op_protect o) then Ret tt else Fault).
    Proof.
      intros Er. pose proof (wmap_if_spec t Ht o fd s r s' W O H) as [_ M]. rewrite Hf, Er in M. cbv zeta in M.
      destruct M as (w1 & FD & L' & FR & N & R & Rw & SR & _ & _ & Md). fold ob in FD, FR, Md. split; [exact Rw|]. intros i b Hi.
      assert (C : 0 < m_ptr m mod P + m_len m) by (pose proof (Z.mod_pos_bound (m_ptr m) P HP); lia).
      destruct (made_backed t Ht _ _ _ _ _ _ _ Md C) as [B Fr].
      destruct (set_spec q Hq _ _ _ _ _ _ i b B Hi) as (e & He & Ow & St & Sf). change (t_page q) with P in *.
      destruct (Fr _ e Ow He) as (Ew & _). unfold wset, lift. change (map_set t m i b (n_w s')) with (map_set q m i b (n_w s')).
      destruct (prot_writes (op_protect o)).
      - destruct (St (proj1 (wshows m Er i Hi)) Ew) as (w' & -> & _). reflexivity.
      - rewrite (Sf Ew). reflexivity.
    Qed.
  End FileMap.

  (** ** Anonymous maps *)
  Lemma walloc_lemma o s r s' : wf (n_w s) -> options_ok t o -> walloc_fits t o \/ t_checks t = true -> walloc t o s = (r, s') ->
    same_rest s s' /\ (forall a, n_resv s' a = n_resv s a) /\
    match r with
    | Ret m => walloc_fits t o /\ walloc_len t o (m_len m) /\
        (forall i, 0 <= i < m_len m -> wget t m i s' = (Ret 0, s')) /\
        (forall i b, 0 <= i < m_len m -> fst (wset t m i b s') = (if prot_writes (op_protect o) then Ret tt else Fault)) /\
        (exists n, 0 < n /\
          (forall a, n_view s' a = if a =? map_base t m then Some n else n_view s a) /\
          (forall p, in_view t (map_base t m) n p -> w_vm (n_w s) p = None) /\
          (forall p, ~ in_view t (map_base t m) n p -> w_vm (n_w s') p = w_vm (n_w s) p) /\
          map_base t m <= m_ptr m /\ m_ptr m + m_len m <= map_base t m + P * n /\ m_ptr m mod P = op_offset o mod P)
    | Err e => walloc_fits t o /\ same_space s s' /\ (e_op e = MapAnonymousHandle \/ e_op e = MapAnonymousView)
    | Panic => ~ walloc_fits t o /\ s' = s
    | _ => False
    end.
  Proof.
    intros W Oo Fi H. apply (walloc_spec t Ht) in H as (_ & R & H); auto. split; [exact R|].
    destruct r as [m|e| | |]; try contradiction.
    2: { split; [exact (ss_resv _ _ (proj1 (proj2 H)))|exact H]. }
    2: { destruct H as [H ->]. auto. }
    destruct H as (F & Ln & _ & Md & Dz & Ds).
    assert (BK : forall i, 0 <= i < m_len m -> backed q (n_w s') m (w_next (n_w s)) (op_offset o mod P) (win_shares (op_protect o)) (prot_writes (op_protect o)) /\
      (forall pg e, own_page t m pg -> w_vm (n_w s') pg = Some e -> p_w e = prot_writes (op_protect o) /\ p_copy e = None /\ p_lock e = false)).
    { intros i Hi. apply (made_backed t Ht _ _ _ _ _ _ _ Md). pose proof (Z.mod_pos_bound (m_ptr m) P HP). lia. }
    split. { destruct Md as [(_ & _ & _ & _ & [_ _ _ _ C5] & _) _ _ _ _]. exact C5. }
    split; [exact F|]. split; [exact Ln|]. split; [|split].
    - intros i Hi. destruct (BK i Hi) as [B Fr]. pose proof (get_spec q Hq _ _ _ _ _ _ B i Hi ltac:(lia)) as E.
      change (map_get q m i (n_w s')) with (map_get t m i (n_w s')) in E. unfold wget, lift. rewrite E.
      destruct (byte_page q Hq _ _ _ _ _ _ B i Hi) as (_ & Ow & _). destruct (byte_entry q Hq _ _ _ _ _ _ B i Hi) as (e & Ee & _).
      unfold shown. rewrite Ee. change (t_page q) with P in *. rewrite (proj1 (proj2 (Fr _ e Ow Ee))), Dz. destruct s'; reflexivity.
    - intros i b Hi. destruct (BK i Hi) as [B Fr]. destruct (set_spec q Hq _ _ _ _ _ _ i b B Hi) as (e & He & Ow & St & Sf). change (t_page q) with P in *.
      destruct (Fr _ e Ow He) as (Ew & _). unfold wset, lift. change (map_set t m i b (n_w s')) with (map_set q m i b (n_w s')).
      destruct (prot_writes (op_protect o)); [destruct (St ltac:(lia) Ew) as (w' & -> & _); reflexivity|]. rewrite (Sf Ew). reflexivity.
    - pose proof (made_in t Ht _ _ _ _ _ _ _ Md) as (I1 & I2 & I3 & I4 & I5 & I6 & I7 & I8).
      destruct Md as [(V0 & Vg & Vl & Vh & [C1 C2 C3 C4 C5] & Vs) Mp Ml Mo Mf].
      set (V := op_offset o mod P + m_len m) in *. exists (npages t V). pose proof (npages_bounds t HP V) as NB. split; [nia|].
      split. { intros a. destruct (Z.eqb_spec a (map_base t m)) as [->|N]; [exact C1|exact (C4 a N)]. }
      split; [intros p Hp; exact (C2 p Hp)|]. split; [intros p Hp; exact (C3 p Hp)|].
      pose proof (Z.mod_pos_bound (op_offset o) P HP). pose proof (Z.mod_pos_bound (op_offset o mod P) G HG).
      assert (PG : P <= G) by apply Ht. rewrite (Z.mod_small (op_offset o mod P) G) in * by lia.
      split; [lia|]. split; [lia|]. rewrite Mp. rewrite <- Z.add_mod_idemp_l, (aligned_page t Ht _ Vg) by lia. rewrite Z.add_0_l, Z.mod_mod by lia. reflexivity.
  Qed.

  (** ** Dropping *)
  Lemma drop_lemma g k v r g' : prog_ok t g -> g_tab g k = Some (TMap v) -> 0 < m_len (v_map v) -> act_step t (ADrop k) g = (r, g') ->
    r = Ret GNone /\ g_tab g' k = None /\ (forall j, j <> k -> g_tab g' j = g_tab g j) /\
    ((calls (g_s g) (g_s g') [(WUnmap (map_base t (v_map v)), true)] /\ view_removed t (g_s g) (g_s g') (map_base t (v_map v)) /\
      (forall p, own_page t (v_map v) p -> w_vm (n_w (g_s g')) p = None)) \/
     (calls (g_s g) (g_s g') [(WUnmap (map_base t (v_map v)), false)] /\ same_space (g_s g) (g_s g'))) /\
    (forall x l, w_orc (n_w (g_s g)) = Grant x :: l -> calls (g_s g) (g_s g') [(WUnmap (map_base t (v_map v)), true)]).
  Proof.
    intros Hg Hk Hl H. pose proof (po_thing _ _ Hg _ _ Hk) as M. cbn in M. unfold act_step in H. rewrite Hk in H.
    destruct (wdrop t (v_map v) (g_s g)) as [x s1] eqn:E. destruct (mo_view _ _ _ M) as (n & Vw & Iw).
    apply (wdrop_spec t Ht) in E as [-> E]; [|apply M..]. rewrite (proj2 (Z.eqb_neq (m_len (v_map v)) 0)) in E by lia.
    destruct E as (b & Eu & C & E). cbn [finish fst snd] in H.
    assert (X : r = Ret GNone /\ g' = g_put g s1 k None) by (injection H; auto). destruct X as [-> ->]. cbn [g_tab g_s g_put].
    split; [reflexivity|]. split; [apply put_same|]. split; [intros j Nj; apply put_other; exact Nj|]. split.
    - destruct b as [[]|e| | |]; try contradiction.
      + left. split; [exact C|]. split; [exact E|]. intros p Hp. destruct E as (n' & Vn & E & _). assert (n' = n) by congruence. subst n'.
        rewrite E. specialize (Iw p Hp). unfold in_view in Iw. rewrite (proj2 (Z.leb_le _ p)), (proj2 (Z.ltb_lt p _)) by lia. reflexivity.
      + right. split; [exact C|]. exact (wq_space _ _ E).
    - intros x l Hx. unfold unmap_view, call, ask in Eu. rewrite Hx in Eu. cbn [n_view with_w with_env n_env] in Eu. rewrite Vw in Eu.
      assert (ok b = true) as Hb by (injection Eu as <- _; reflexivity). rewrite Hb in C. exact C.
  Qed.

  (** A map of no bytes keeps its view for good. *)
  Lemma drop_empty g k v r g' : g_tab g k = Some (TMap v) -> m_len (v_map v) = 0 -> act_step t (ADrop k) g = (r, g') ->
    r = Ret GNone /\ g_tab g' k = None /\ g_s g' = g_s g.
  Proof.
    intros Hk Hl H. unfold act_step in H. rewrite Hk in H. unfold wdrop in H. rewrite Hl in H. cbn in H. injection H as <- <-.
    cbn. split; [reflexivity|]. split; [apply put_same|reflexivity].
  Qed.

  (** ** Flushing *)
  Lemma flush_part g k v fd off n s1 x : prog_ok t g -> g_tab g k = Some (TMap v) -> win_shares (v_prot v) = true ->
    0 <= off -> 0 < n -> off + n <= m_len (v_map v) ->
    (exists a c, (P * a <= m_ptr (v_map v) + off /\ m_ptr (v_map v) + off + n <= P * (a + c)) /\ win_flush t (P * a) fd (P * c) FlushSync (g_s g) = (x, s1) /\
        first_page t (v_map v) <= a /\ a + c <= first_page t (v_map v) + page_count t (v_map v)) ->
    memory_kept (g_s g) s1 /\
    match x with
    | Ret _ => exists f, w_fd (n_w (g_s g)) fd = Some f /\ fd_w f = true /\
        (fd_obj f = v_obj v -> forall i, off <= i < off + n ->
           o_disk (w_obj (n_w s1) (v_obj v)) (v_off v + i) = o_data (w_obj (n_w s1) (v_obj v)) (v_off v + i)) /\
        (forall o, o <> fd_obj f -> w_obj (n_w s1) o = w_obj (n_w (g_s g)) o)
    | Err e => (forall o, w_obj (n_w s1) o = w_obj (n_w (g_s g)) o) /\ e_op e = OpFlush
    | _ => False
    end.
  Proof.
    intros Hg Hk Sh Ho Hn Hm (a & c & (A1 & A2) & H & A3 & A4). pose proof (po_thing _ _ Hg _ _ Hk) as M. cbn in M.
    assert (C : 0 < m_ptr (v_map v) mod P + m_len (v_map v)) by (pose proof (Z.mod_pos_bound (m_ptr (v_map v)) P HP); lia).
    pose proof (mo_back _ _ _ M C) as B. pose proof (bk_lo _ _ _ _ _ _ _ B) as Lo. cbn [t_page as_posix] in Lo.
    assert (F0 : 0 <= first_page t (v_map v)) by (unfold first_page; apply Z.div_pos; lia).
    assert (Cp : 0 < c) by nia.
    apply (win_flush_spec t Ht) in H as [MK H]; [|nia|nia]. split; [exact MK|]. destruct x as [[]|e| | |]; try contradiction.
    - destruct H as (Mp & f & Ff & Fw & _ & Dk & _ & Oth). exists f. split; [exact Ff|]. split; [exact Fw|]. split; [|exact Oth].
      intros Eo i Hi. destruct MK as (_ & _ & _ & _ & MK & _). rewrite (proj2 (MK (v_obj v))).
      destruct (byte_page q Hq _ _ _ _ _ _ B i ltac:(lia)) as (_ & Ow & _).
      destruct (byte_entry q Hq _ _ _ _ _ _ B i ltac:(lia)) as (e & Ee & Eob & Ex & _ & Es & _). change (t_page q) with P in *.
      rewrite <- Eo. apply (Dk ((m_ptr (v_map v) + i) / P) e (v_off v + i)); try congruence.
      + assert (D1 : P * a / P = a) by (rewrite Z.mul_comm; apply Z.div_mul; lia).
        assert (D2 : (P * a + P * c - 1) / P = a + c - 1).
        { replace (P * a + P * c - 1) with (P - 1 + (a + c - 1) * P) by lia. rewrite Z.div_add, Z.div_small by lia. lia. }
        rewrite D1, D2. split; [apply Z.div_le_lower_bound; lia|]. apply Z.lt_succ_r. apply Z.div_lt_upper_bound; lia.
      + pose proof (Z.mod_pos_bound (m_ptr (v_map v) + i) P HP). apply Z.div_unique with ((m_ptr (v_map v) + i) mod P); lia.
    - destruct H as (H & c0 & ->). auto.
  Qed.

  Lemma flush_lemma g k v fd r g' : prog_ok t g -> g_tab g k = Some (TMap v) -> v_mut v = true -> win_shares (v_prot v) = true ->
    0 < m_len (v_map v) -> act_step t (AFlush k fd FlushSync) g = (r, g') -> flushed g g' r v fd 0 (m_len (v_map v)).
  Proof.
    intros Hg Hk Hm Sh Hl H. pose proof (po_thing _ _ Hg _ _ Hk) as M. cbn in M.
    assert (C : 0 < m_ptr (v_map v) mod P + m_len (v_map v)) by (pose proof (Z.mod_pos_bound (m_ptr (v_map v)) P HP); lia).
    pose proof (mo_back _ _ _ M C) as B. pose proof (whole_bounds (E:=error) q Hq _ _ _ _ _ _ B) as WB.
    change (size_bounds (E:=error) t P (m_ptr (v_map v)) (m_len (v_map v)) = Ret (P * first_page t (v_map v), P * page_count t (v_map v))) in WB.
    unfold act_step, with_mut, with_map, wflush, wwhole, wbind, wout, size_page in H. rewrite Hk, Hm, WB in H. cbn [fst snd] in H.
    destruct (win_flush t (P * first_page t (v_map v)) fd (P * page_count t (v_map v)) FlushSync (g_s g)) as [x s1] eqn:E.
    assert (X : g' = g_set g s1 /\ match x with Ret _ => r = Ret GNone | Err e => r = Err e | Panic => r = Panic | Fault => r = Fault | Blocked => r = Blocked end).
    { destruct x as [[]|e| | |]; injection H as <- <-; auto. }
    destruct X as [-> X]. split; [reflexivity|]. cbn [g_s g_set].
    destruct (flush_part g k v fd 0 (m_len (v_map v)) s1 x Hg Hk Sh) as [F1 F2]; try lia.
    { exists (first_page t (v_map v)), (page_count t (v_map v)). split; [|split; [exact E|lia]].
      pose proof (MapOps.map_end q Hq (v_map v)) as ME. pose proof (MapOps.ptr_split q Hq (v_map v)) as [S1 S2].
      change (first_page q) with (first_page t) in *. change (page_count q) with (page_count t) in *. cbn [t_page as_posix] in *. lia. }
    split; [exact F1|]. destruct x as [[]|e| | |]; try contradiction; subst r; exact F2.
  Qed.
  Lemma flush_range_lemma g k v fd off n r g' : prog_ok t g -> g_tab g k = Some (TMap v) -> v_mut v = true -> win_shares (v_prot v) = true ->
    0 <= off -> 0 < n -> off + n <= m_len (v_map v) -> act_step t (AFlushRange k fd off n FlushSync) g = (r, g') -> flushed g g' r v fd off n.
  Proof.
    intros Hg Hk Hm Sh Ho Hn Hl H. pose proof (po_thing _ _ Hg _ _ Hk) as M. cbn in M.
    assert (C : 0 < m_ptr (v_map v) mod P + m_len (v_map v)) by (pose proof (Z.mod_pos_bound (m_ptr (v_map v)) P HP); lia).
    pose proof (mo_back _ _ _ M C) as B. pose proof (bk_lo _ _ _ _ _ _ _ B) as Lo. cbn [t_page as_posix] in Lo.
    destruct (range_bounds q Hq _ _ _ _ _ _ B (E:=error) off n Ho ltac:(lia) Hl) as (a & c & WB & _ & A1 & A2 & _ & A3 & A4 & _).
    change (size_bounds (E:=error) t P (ptr_add t (m_ptr (v_map v)) off) n = Ret (P * a, P * c)) in WB.
    pose proof (mo_high _ _ _ M). pose proof (mo_len _ _ _ M).
    unfold act_step, with_mut, with_map, wflush_range, wranged, wbind, wout, size_page, uadd in H. rewrite Hk, Hm in H.
    rewrite wrap_in in H by lia. rewrite (proj2 (Z.ltb_ge _ _)) in H by exact Hl. rewrite WB in H. cbn [fst snd] in H.
    destruct (win_flush t (P * a) fd (P * c) FlushSync (g_s g)) as [x s1] eqn:E.
    assert (X : g' = g_set g s1 /\ match x with Ret _ => r = Ret GNone | Err e => r = Err e | Panic => r = Panic | Fault => r = Fault | Blocked => r = Blocked end).
    { destruct x as [[]|e| | |]; injection H as <- <-; auto. }
    destruct X as [-> X]. split; [reflexivity|]. cbn [g_s g_set].
    destruct (flush_part g k v fd off n s1 x Hg Hk Sh Ho Hn Hl) as [F1 F2].
    { exists a, c. cbn [t_page as_posix] in *. change (first_page q) with (first_page t) in *. change (page_count q) with (page_count t) in *. auto. }
    split; [exact F1|]. destruct x as [[]|e| | |]; try contradiction; subst r; exact F2.
  Qed.
End Claims.
