(** Maps and rings on Windows after any history: what the theorems of
    PropertiesWinMap.v rest on. *)
From Coq Require Import Lia.
From Verif Require Import Base Spec ErrorModel SizeModel OsModel MapModel MapSpec RingMapModel RingMapSpec SizeProofs OsProofs
  MapProofs MapCreate MapOps MirrorProofs RingMapClaims WinModel WinSpec WinProofs WinClaims WinCalls WinMapModel WinMapSpec WinSpace WinKeep WinMapProofs WinAlloc WinThings WinHist WinLeak.

Section Claims.
  Variable t : target.
  Hypothesis Ht : good_target t.
  Notation P := (t_page t).
  Notation G := (t_alloc t).
  Notation q := (as_posix t).
  Let HP : 0 < P.
  Proof. exact (pow2_pos _ (proj1 (proj2 Ht))). Qed.
  Let HG : 0 < G.
  Proof. exact (pow2_pos _ (proj1 (proj2 (proj2 Ht)))). Qed.
  Let Hq : posix_target q.
  Proof. exact (posix_of t Ht). Qed.

  (** ** All histories *)
  Lemma start_ok s : fresh_start s -> prog_ok t (holds_nothing s) /\ all_held t (holds_nothing s).
  Proof.
    intros [W V N]. split; split; cbn; try discriminate; auto.
    - split; intros *; rewrite N; discriminate.
    - intros a n. rewrite N. discriminate.
    - intros p e. rewrite V. discriminate.
  Qed.
  Lemma run_ok h : forall g, prog_ok t g -> Forall (act_ok t) h -> prog_ok t (act_run t h g).
  Proof.
    induction h as [|a h IH]; intros g Hg F; [exact Hg|]. inversion F as [|? ? Fa Fh]; subst. cbn [act_run].
    destruct (step_spec t Ht a g Fa Hg) as (X & T & Y & S1). exact (IH _ (st_ok _ _ _ _ _ _ _ S1) Fh).
  Qed.
  Lemma reached_prog ok g : reached_win t ok g -> prog_ok t g.
  Proof.
    intros (s & h & Fs & F & ->). apply run_ok; [exact (proj1 (start_ok s Fs))|]. refine (Forall_impl _ _ F). tauto.
  Qed.

  (** ** Reading *)
  Definition as_got (r : out error byte) : out error got :=
    match r with Ret b => Ret (GByte b) | Err e => Err e | Panic => Panic | Fault => Fault | Blocked => Blocked end.
  Lemma reading_eq g k x i : g_tab g k = Some x -> thing_ok t (g_s g) x ->
    reading t g k i = if (0 <=? i) && (i <? size_of x) then as_got (OsModel.load t (n_w (g_s g)) (addr_of x + i)) else Panic.
  Proof.
    intros Hk H. unfold reading, act_step. rewrite Hk. destruct x as [v|r o]; cbn [size_of addr_of] in *.
    - unfold reads, wget, lift, map_get. destruct ((0 <=? i) && (i <? m_len (v_map v))) eqn:B; [|reflexivity].
      apply andb_true_iff in B as [B1 B2]. apply Z.leb_le in B1. apply Z.ltb_lt in B2.
      assert (C : 0 < m_ptr (v_map v) mod P + m_len (v_map v)) by (pose proof (Z.mod_pos_bound (m_ptr (v_map v)) P HP); lia).
      destruct (byte_page q Hq _ _ _ _ _ _ (mo_back _ _ _ H C) i (conj B1 B2)) as (Ep & _).
      change (ptr_add q (m_ptr (v_map v)) i) with (ptr_add t (m_ptr (v_map v)) i) in Ep. rewrite Ep.
      destruct (OsModel.load (E:=error) t (n_w (g_s g)) (m_ptr (v_map v) + i)); reflexivity.
    - unfold reads, wring_get. destruct ((0 <=? i) && (i <? 2 * ra_len r)); [|reflexivity].
      destruct (OsModel.load (E:=error) t (n_w (g_s g)) (ra_ptr r + i)); reflexivity.
  Qed.

  Lemma map_load s v i : map_ok t s v -> 0 <= i < m_len (v_map v) -> v_off v + i < o_size (w_obj (n_w s) (v_obj v)) ->
    exists b, OsModel.load (E:=error) t (n_w s) (m_ptr (v_map v) + i) = Ret b /\
      (win_shares (v_prot v) = true -> b = o_data (w_obj (n_w s) (v_obj v)) (v_off v + i)).
  Proof.
    intros M Hi Hs. assert (C : 0 < m_ptr (v_map v) mod P + m_len (v_map v)) by (pose proof (Z.mod_pos_bound (m_ptr (v_map v)) P HP); lia).
    pose proof (mo_back _ _ _ M C) as B. pose proof (get_spec q Hq _ _ _ _ _ _ B i Hi Hs) as E.
    destruct (byte_page q Hq _ _ _ _ _ _ B i Hi) as (Ep & _).
    unfold map_get in E. rewrite (proj2 (Z.leb_le 0 i)), (proj2 (Z.ltb_lt i _)) in E by lia. cbn [andb] in E. rewrite Ep in E.
    exists (shown q (n_w s) (v_map v) (v_obj v) (v_off v) i). split.
    - change (OsModel.load (E:=error) t (n_w s) (m_ptr (v_map v) + i)) with (OsModel.load (E:=error) q (n_w s) (m_ptr (v_map v) + i)).
      injection E; auto.
    - intros Sh. rewrite Sh in B. exact (shown_shared q Hq _ _ _ _ _ i B Hi).
  Qed.
  (** The address, page and entry of a byte of a ring. *)
  Lemma ring_byte s r o n i : ring_ok t s r o n -> 0 <= i < 2 * ra_len r ->
    (ra_ptr r + i) / P = ra_ptr r / P + i / P /\ (ra_ptr r + i) mod P = i mod P /\ 0 <= i / P < 2 * n /\
    P * ((i / P) mod n) + i mod P = i mod ra_len r /\ 0 <= (i / P) mod n < n /\ 0 <= i mod P < P.
  Proof.
    intros R Hi. pose proof (ro_n _ _ _ _ _ R). pose proof (ro_len _ _ _ _ _ R) as L. rewrite L in *.
    destruct (page_split t Ht (ra_ptr r) i (ro_align _ _ _ _ _ R)) as [E1 E2]. split; [exact E1|]. split; [exact E2|].
    assert (Hk : 0 <= i / P < 2 * n) by (split; [apply Z.div_pos; lia|apply Z.div_lt_upper_bound; lia]). split; [exact Hk|].
    pose proof (Z.mod_pos_bound i P HP). pose proof (Z.mod_pos_bound (i / P) n ltac:(lia)).
    split; [|auto]. rewrite (Z.rem_mul_r i P n) by lia. lia.
  Qed.
  Lemma ring_load s r o n i : ring_ok t s r o n -> 0 <= i < 2 * ra_len r ->
    OsModel.load (E:=error) t (n_w s) (ra_ptr r + i) = Ret (o_data (w_obj (n_w s) o) (i mod ra_len r)).
  Proof.
    intros R Hi. destruct (ring_byte s r o n i R Hi) as (E1 & E2 & Hk & E3 & B1 & B2).
    destruct (ro_page _ _ _ _ _ R _ Hk) as (e & He & Eo & Ei & Er & Ew & Es & Ec).
    unfold OsModel.load, page_byte. rewrite E1, He, E2, Er, Eo, Ei, Ec, E3. cbn [negb].
    pose proof (ro_size _ _ _ _ _ R). destruct (Z.leb_spec (o_size (w_obj (n_w s) o)) (P * ((i / P) mod n))); [nia|reflexivity].
  Qed.

  Lemma private_load s x i : thing_ok t s x -> private_thing x = true -> 0 <= i < size_of x ->
    exists b, OsModel.load (E:=error) t (n_w s) (addr_of x + i) = Ret b.
  Proof.
    intros H Hp Hi. destruct x as [v|r o]; cbn -[Z.mul Z.add] in *.
    - destruct (mo_anon _ _ _ H Hp). destruct (map_load s v i H Hi ltac:(lia)) as (b & E & _). eauto.
    - destruct H as (n & H). rewrite (ring_load s r o n i H Hi). eauto.
  Qed.

  (** ** Storing *)
  Lemma map_store s v i b : map_ok t s v -> v_w v = true -> 0 <= i < m_len (v_map v) -> v_off v + i < o_size (w_obj (n_w s) (v_obj v)) ->
    exists w', wset t (v_map v) i b s = (Ret tt, with_w s w') /\
      OsModel.load (E:=error) t w' (m_ptr (v_map v) + i) = Ret b /\
      (forall j, 0 <= j < m_len (v_map v) -> j <> i ->
         OsModel.load (E:=error) t w' (m_ptr (v_map v) + j) = OsModel.load t (n_w s) (m_ptr (v_map v) + j)) /\
      (forall o j, o_data (w_obj w' o) j =
         if win_shares (v_prot v) && (o =? v_obj v) && (j =? v_off v + i) then b else o_data (w_obj (n_w s) o) j) /\
      (forall o, o_size (w_obj w' o) = o_size (w_obj (n_w s) o)).
  Proof.
    intros M Hw Hi Hs. assert (C : 0 < m_ptr (v_map v) mod P + m_len (v_map v)) by (pose proof (Z.mod_pos_bound (m_ptr (v_map v)) P HP); lia).
    pose proof (mo_back _ _ _ M C) as B.
    destruct (set_spec q Hq _ _ _ _ _ _ i b B Hi) as (e & He & Op & St & _).
    destruct (St Hs (mo_w _ _ _ M Hw _ e Op He)) as (w' & E & _ & _ & _ & _ & X). clear St.
    change (map_set q (v_map v) i b (n_w s)) with (map_set t (v_map v) i b (n_w s)) in E.
    exists w'. split; [unfold wset, lift; rewrite E; reflexivity|].
    destruct (byte_entry q Hq _ _ _ _ _ _ B i Hi) as (e' & He' & Eo & Ex & El & Es & _ & Er & Ec).
    change (t_page q) with P in *. assert (e' = e) by congruence. subst e'.
    destruct (win_shares (v_prot v)).
    - destruct X as [Xv Xo]. cbn [andb]. split; [|split; [|split]].
      + unfold OsModel.load, page_byte. rewrite Xv, Xo, He, Er, Eo, (Ec eq_refl), Ex. unfold put. rewrite Z.eqb_refl. cbn [negb o_size o_data].
        destruct (Z.leb_spec (o_size (w_obj (n_w s) (v_obj v))) (P * p_idx e)); [lia|]. unfold upd. rewrite Z.eqb_refl. reflexivity.
      + intros j Hj N. destruct (byte_entry q Hq _ _ _ _ _ _ B j Hj) as (f & Hf & Fo & Fx & _ & _ & _ & Fr & Fc).
        change (t_page q) with P in *. unfold OsModel.load, page_byte. rewrite Xv, Xo, Hf, Fr, Fo, (Fc eq_refl), Fx. unfold put. rewrite Z.eqb_refl.
        cbn [negb o_size o_data]. destruct (_ <=? _); [reflexivity|]. unfold upd.
        destruct (Z.eqb_spec (v_off v + j) (v_off v + i)); [lia|reflexivity].
      + intros o j. rewrite Xo. unfold put. destruct (Z.eqb_spec o (v_obj v)) as [->|]; [|reflexivity]. cbn. unfold upd. reflexivity.
      + intros o. rewrite Xo. unfold put. destruct (Z.eqb_spec o (v_obj v)) as [->|]; reflexivity.
    - destruct X as [Xo Xv]. cbn [andb]. split; [|split; [|split; intros; rewrite Xo; reflexivity]].
      + unfold OsModel.load, page_byte. rewrite Xv, Xo. change (t_page q) with P. unfold put. rewrite Z.eqb_refl. cbn. rewrite Er, Eo. cbn [negb].
        destruct (Z.leb_spec (o_size (w_obj (n_w s) (v_obj v))) (P * p_idx e)); [lia|]. unfold upd. rewrite Z.eqb_refl. reflexivity.
      + intros j Hj N. unfold OsModel.load, page_byte. rewrite Xv, Xo. change (t_page q) with P. unfold put.
        destruct (Z.eqb_spec ((m_ptr (v_map v) + j) / P) ((m_ptr (v_map v) + i) / P)) as [D|]; [|reflexivity].
        rewrite D, He. cbn. rewrite Er. cbn [negb]. destruct (_ <=? _); [reflexivity|]. unfold upd.
        destruct (Z.eqb_spec ((m_ptr (v_map v) + j) mod P) ((m_ptr (v_map v) + i) mod P)) as [D2|]; [|reflexivity].
        exfalso. pose proof (Z.div_mod (m_ptr (v_map v) + j) P ltac:(lia)). pose proof (Z.div_mod (m_ptr (v_map v) + i) P ltac:(lia)). rewrite D, D2 in *. lia.
  Qed.
  Lemma ring_store s r o n i b : ring_ok t s r o n -> 0 <= i < 2 * ra_len r ->
    exists w', wring_set t r i b s = (Ret tt, with_w s w') /\
      (forall j, 0 <= j < 2 * ra_len r -> OsModel.load (E:=error) t w' (ra_ptr r + j) =
         if j mod ra_len r =? i mod ra_len r then Ret b else OsModel.load t (n_w s) (ra_ptr r + j)) /\
      (forall o' j, o_data (w_obj w' o') j = if (o' =? o) && (j =? i mod ra_len r) then b else o_data (w_obj (n_w s) o') j) /\
      (forall o', o_size (w_obj w' o') = o_size (w_obj (n_w s) o')).
  Proof.
    intros R Hi. destruct (ring_byte s r o n i R Hi) as (E1 & E2 & Hk & E3 & B1 & B2).
    destruct (ro_page _ _ _ _ _ R _ Hk) as (e & He & Eo & Ei & Er & Ew & Es & Ec). pose proof (ro_size _ _ _ _ _ R) as Sz.
    assert (E : wring_set t r i b s = (Ret tt, with_w s (set_obj (n_w s) (put (w_obj (n_w s)) o
       {| o_size := o_size (w_obj (n_w s) o); o_data := upd (o_data (w_obj (n_w s) o)) (i mod ra_len r) b; o_disk := o_disk (w_obj (n_w s) o) |})))).
    { unfold wring_set, lift. rewrite (proj2 (Z.leb_le 0 i)), (proj2 (Z.ltb_lt i (2 * ra_len r))) by lia. cbn [andb].
      unfold OsModel.store. rewrite E1, He, E2, Ew, Eo, Ei, Es, E3. cbn [negb].
      destruct (Z.leb_spec (o_size (w_obj (n_w s) o)) (P * ((i / P) mod n))); [nia|].
      rewrite (proj2 (Z.ltb_lt (i mod ra_len r) (o_size (w_obj (n_w s) o)))); [reflexivity|]. rewrite <- E3. nia. }
    eexists. split; [exact E|]. split; [|split].
    - intros j Hj. rewrite (ring_load s r o n j R Hj). destruct (ring_byte s r o n j R Hj) as (F1 & F2 & Hk' & F3 & C1 & C2).
      destruct (ro_page _ _ _ _ _ R _ Hk') as (f & Hf & Fo & Fi & Fr & Fw & Fs & Fc).
      unfold OsModel.load, page_byte. cbn [w_vm w_obj set_obj]. rewrite F1, Hf, F2, Fr, Fo, Fi, Fc, F3. unfold put. rewrite Z.eqb_refl. cbn [negb o_size o_data].
      destruct (Z.leb_spec (o_size (w_obj (n_w s) o)) (P * ((j / P) mod n))); [nia|]. unfold upd. destruct (_ =? _); reflexivity.
    - intros o' j. cbn. unfold put. destruct (Z.eqb_spec o' o) as [->|]; reflexivity.
    - intros o'. cbn. unfold put. destruct (Z.eqb_spec o' o) as [->|]; reflexivity.
  Qed.

  (** ** The claims *)
  Lemma private_read g k x : prog_ok t g -> g_tab g k = Some x -> private_thing x = true ->
    (forall i, 0 <= i < size_of x -> exists b, reading t g k i = Ret (GByte b)) /\
    (forall i, ~ (0 <= i < size_of x) -> reading t g k i = Panic) /\
    (forall i j, 0 <= i < size_of x -> 0 <= j < size_of x -> same_cell x i j -> reading t g k j = reading t g k i).
  Proof.
    intros Hg Hk Hp. pose proof (po_thing _ _ Hg _ _ Hk) as Tk.
    assert (In : forall i, 0 <= i < size_of x -> (0 <=? i) && (i <? size_of x) = true).
    { intros i Hi. apply andb_true_iff. split; [apply Z.leb_le|apply Z.ltb_lt]; lia. }
    split; [|split].
    - intros i Hi. rewrite (reading_eq g k x i Hk Tk), In by exact Hi. destruct (private_load (g_s g) x i Tk Hp Hi) as (b & ->). exists b. reflexivity.
    - intros i Hi. rewrite (reading_eq g k x i Hk Tk). destruct ((0 <=? i) && (i <? size_of x)) eqn:B; [exfalso|reflexivity].
      apply andb_true_iff in B as [B1 B2]. apply Z.leb_le in B1. apply Z.ltb_lt in B2. auto.
    - intros i j Hi Hj Sc. rewrite !(reading_eq g k x _ Hk Tk), !In by assumption. destruct x as [v|r o]; cbn [same_cell] in Sc; [rewrite Sc; reflexivity|].
      destruct Tk as (n & Tk). cbn [addr_of size_of] in *. rewrite !(ring_load _ r o n) by assumption. rewrite Sc. reflexivity.
  Qed.

  Lemma private_kept a g k x : act_ok t a -> prog_ok t g -> g_tab g k = Some x -> private_thing x = true -> ~ touches a k ->
    let g' := snd (act_step t a g) in
    exists x', g_tab g' k = Some x' /\ same_thing x x' /\ forall i, reading t g' k i = reading t g k i.
  Proof.
    intros Ha Hg Hk Hp Nt g'. destruct (step_spec t Ht a g Ha Hg) as (X & T & Y & S1). fold g' in S1.
    assert (Nd : ~ drops a k) by (destruct a; cbn in *; auto).
    destruct (st_tab _ _ _ _ _ _ _ S1 k x Hk Nd) as (x' & Hk' & Sx). exists x'. split; [exact Hk'|]. split; [exact Sx|].
    intros i. pose proof (po_thing _ _ Hg _ _ Hk) as Tk. pose proof (po_thing _ _ (st_ok _ _ _ _ _ _ _ S1) _ _ Hk') as Tk'.
    assert (Ea : addr_of x' = addr_of x /\ size_of x' = size_of x).
    { destruct x as [v|r o], x' as [v'|r' o']; cbn -[Z.mul] in *; try contradiction; [destruct Sx as [-> _]; auto|destruct Sx as [-> _]; auto]. }
    destruct Ea as [Ea Es]. rewrite (reading_eq g' k x' i Hk' Tk'), (reading_eq g k x i Hk Tk), Es, Ea.
    destruct ((0 <=? i) && (i <? size_of x)) eqn:B; [|reflexivity]. apply andb_true_iff in B as [B1 B2]. apply Z.leb_le in B1. apply Z.ltb_lt in B2.
    f_equal. destruct (po_own _ _ Hg _ _ Hk Hp) as [Nn _].
    apply (bytes_ev t Ht X T Y (g_s g) (g_s g') x i (po_space _ _ Hg) (st_ev _ _ _ _ _ _ _ S1)); auto.
    - intros b Xb. exact (st_X _ _ _ _ _ _ _ S1 k x b Hk Nd Xb).
    - intros p Tp. exact (st_T _ _ _ _ _ _ _ S1 k x p Hk Nt Tp).
    - exact (st_Y _ _ _ _ _ _ _ S1 k x Hk Hp Nt).
  Qed.

  Lemma private_in g k x i : prog_ok t g -> g_tab g k = Some x -> private_thing x = true -> 0 <= i < size_of x -> in_object g x i.
  Proof.
    intros Hg Hk Hp Hi. pose proof (po_thing _ _ Hg _ _ Hk) as Tk. destruct x as [v|r o]; cbn -[Z.mul] in *; [|exact I].
    destruct (mo_anon _ _ _ Tk Hp). lia.
  Qed.
  Lemma store_seen g k x i b : prog_ok t g -> g_tab g k = Some x -> can_store x = true -> 0 <= i < size_of x -> in_object g x i ->
    exists g', act_step t (ASet k i b) g = (Ret GNone, g') /\ g_tab g' k = Some x /\
      (forall j, 0 <= j < size_of x -> same_cell x i j -> reading t g' k j = Ret (GByte b)) /\
      (forall j, ~ same_cell x i j -> reading t g' k j = reading t g k j) /\
      match x with
      | TMap v => forall o j, o_data (w_obj (n_w (g_s g')) o) j =
          if win_shares (v_prot v) && (o =? v_obj v) && (j =? v_off v + i) then b else o_data (w_obj (n_w (g_s g)) o) j
      | TRing _ _ => True
      end.
  Proof.
    intros Hg Hk Cs Hi Ho. pose proof (po_thing _ _ Hg _ _ Hk) as Tk.
    assert (K : exists w', act_step t (ASet k i b) g = (Ret GNone, g_set g (with_w (g_s g) w')) /\
      (forall j, 0 <= j < size_of x -> same_cell x i j -> OsModel.load (E:=error) t w' (addr_of x + j) = Ret b) /\
      (forall j, 0 <= j < size_of x -> ~ same_cell x i j -> OsModel.load (E:=error) t w' (addr_of x + j) = OsModel.load t (n_w (g_s g)) (addr_of x + j)) /\
      match x with
      | TMap v => forall o j, o_data (w_obj w' o) j =
          if win_shares (v_prot v) && (o =? v_obj v) && (j =? v_off v + i) then b else o_data (w_obj (n_w (g_s g)) o) j
      | TRing _ _ => True
      end).
    { unfold act_step. rewrite Hk. destruct x as [v|r o]; cbn -[Z.mul Z.add] in *.
      - apply andb_true_iff in Cs as [Cm Cw]. destruct (map_store (g_s g) v i b Tk Cw Hi Ho) as (w' & E & L1 & L2 & D & _).
        exists w'. rewrite Cm, E. split; [reflexivity|]. split; [intros j _ ->; exact L1|]. split; [intros j Hj N; exact (L2 j Hj N)|exact D].
      - destruct Tk as (n & Tk). destruct (ring_store (g_s g) r o n i b Tk Hi) as (w' & E & L1 & _). exists w'. rewrite E. split; [reflexivity|].
        split; [|split; [|exact I]]; intros j Hj; rewrite (L1 j Hj); destruct (Z.eqb_spec (j mod ra_len r) (i mod ra_len r)); intros; (reflexivity || contradiction). }
    destruct K as (w' & E & K1 & K2 & K3). exists (g_set g (with_w (g_s g) w')). split; [exact E|]. split; [exact Hk|].
    assert (Hg' : prog_ok t (g_set g (with_w (g_s g) w'))).
    { destruct (step_spec t Ht (ASet k i b) g I Hg) as (X & T & Y & S1). rewrite E in S1. exact (st_ok _ _ _ _ _ _ _ S1). }
    pose proof (po_thing _ _ Hg' k x Hk) as Tk'.
    split; [|split; [|exact K3]].
    - intros j Hj Sc. rewrite (reading_eq (g_set g (with_w (g_s g) w')) k x j Hk Tk'). rewrite (proj2 (Z.leb_le 0 j)), (proj2 (Z.ltb_lt j (size_of x))) by lia.
      cbn [andb g_s g_set n_w with_w]. rewrite (K1 j Hj Sc). reflexivity.
    - intros j N. rewrite (reading_eq (g_set g (with_w (g_s g) w')) k x j Hk Tk'), (reading_eq g k x j Hk Tk).
      destruct ((0 <=? j) && (j <? size_of x)) eqn:B; [|reflexivity]. apply andb_true_iff in B as [B1 B2]. apply Z.leb_le in B1. apply Z.ltb_lt in B2.
      cbn [g_s g_set n_w with_w]. rewrite (K2 j (conj B1 B2) N). reflexivity.
  Qed.

  Lemma file_read g k v i : prog_ok t g -> g_tab g k = Some (TMap v) -> 0 <= i < m_len (v_map v) -> in_object g (TMap v) i ->
    exists b, reading t g k i = Ret (GByte b) /\ (win_shares (v_prot v) = true -> b = o_data (w_obj (n_w (g_s g)) (v_obj v)) (v_off v + i)).
  Proof.
    intros Hg Hk Hi Ho. pose proof (po_thing _ _ Hg _ _ Hk) as Tk. destruct (map_load (g_s g) v i Tk Hi Ho) as (b & E & B).
    exists b. split; [|exact B]. rewrite (reading_eq g k _ i Hk Tk). cbn [size_of addr_of].
    rewrite (proj2 (Z.leb_le 0 i)), (proj2 (Z.ltb_lt i _)) by lia. cbn [andb]. rewrite E. reflexivity.
  Qed.

  (** ** Nothing left behind *)
  Lemma tidy_held h : forall g, prog_ok t g -> all_held t g -> tidy_run t h g ->
    prog_ok t (act_run t h g) /\ all_held t (act_run t h g) /\ same_kernel (g_s g) (g_s (act_run t h g)).
  Proof.
    induction h as [|a h IH]; intros g Hg Hx Td; [cbn; split; [exact Hg|]; split; [exact Hx|split; reflexivity]|].
    cbn [tidy_run act_run] in *. destruct Td as (Ha & Rl & Df & Td).
    assert (Hx0 : held_but t none none g) by (destruct Hx as [X1 X2]; split; eauto).
    destruct (exact_step t Ht none none a g Ha Hg Hx0 ltac:(destruct a; (exact Logic.I || exact Rl)) Df) as [[X1 X2] [K1 K2]].
    assert (Hx' : all_held t (snd (act_step t a g))).
    { split; [intros b n Hb; destruct (X1 b n Hb) as [[]|X]; exact X|intros b n Hb; destruct (X2 b n Hb) as [[]|X]; exact X]. } destruct (step_spec t Ht a g Ha Hg) as (X & T & Y & S1).
    destruct (IH _ (st_ok _ _ _ _ _ _ _ S1) Hx' Td) as (I1 & I2 & J1 & J2). split; [exact I1|]. split; [exact I2|].
    split; intros; [rewrite J1, K1|rewrite J2, K2]; reflexivity.
  Qed.
  Lemma tidy_exact s h : fresh_start s -> tidy_run t h (holds_nothing s) ->
    let g := act_run t h (holds_nothing s) in
    (forall a, n_view (g_s g) a <> None <-> exists k x, g_tab g k = Some x /\ bases_of t x a) /\
    (forall p, w_vm (n_w (g_s g)) p <> None <-> exists a n, n_view (g_s g) a = Some n /\ in_view t a n p) /\
    same_kernel s (g_s g).
  Proof.
    intros Fs Td g. destruct (start_ok s Fs) as [S1 S2]. destruct (tidy_held h _ S1 S2 Td) as (Hg & [X1 X2] & Kn). fold g in Hg, X1, X2, Kn.
    split; [|split; [|exact Kn]].
    - intros a. split.
      + destruct (n_view (g_s g) a) as [n|] eqn:E; [intros _; eauto|congruence].
      + intros (k & x & Hk & Hb). destruct (bases_view t (g_s g) x a (po_thing _ _ Hg _ _ Hk) Hb) as (n & ->). discriminate.
    - intros p. split.
      + destruct (w_vm (n_w (g_s g)) p) as [e|] eqn:E; [intros _; eauto|congruence].
      + intros (a & n & Va & Ia). destruct (so_mapped _ _ (po_space _ _ Hg) a n p Va Ia) as (e & ->). discriminate.
  Qed.

  (** ** Conversions *)
  Lemma protect_grants a len s r s' (mw : bool) : 0 <= a -> 0 < len ->
    (forall p, a / P <= p <= (a + len - 1) / P -> exists e, w_vm (n_w s) p = Some e /\ p_maxw e = mw) ->
    win_protect t a len ReadWrite s = (r, s') ->
    (forall u, r = Ret u -> mw = true) /\ (forall x l, w_orc (n_w s) = Grant x :: l -> mw = true -> r = Ret tt).
  Proof.
    intros Ha Hl Hp H. unfold win_protect in H. apply win_call_run in H.
    assert (E : a / P + npages t (a mod P + len) = (a + len - 1) / P + 1) by exact (pages_end t Ht a len Ha Hl).
    assert (LE : a / P <= (a + len - 1) / P) by (apply Z.div_le_mono; lia).
    assert (Chk : forall w1, w_vm w1 = w_vm (n_w s) -> forallb (fun q => match w_vm w1 q with
                           | Some e => negb (pr_w (page_prot_bits PageReadWrite)) || p_maxw e | None => false end)
        (page_seq (a / P) (npages t (a mod P + len))) = mw).
    { intros w1 Hw. destruct mw.
      - apply forallb_forall. intros p Ip. apply page_seq_In in Ip. rewrite Hw. destruct (Hp p ltac:(lia)) as (e & -> & ->). reflexivity.
      - apply not_true_is_false. intros F. rewrite forallb_forall in F.
        specialize (F (a / P)). rewrite Hw in F. destruct (Hp (a / P) ltac:(lia)) as (e & He & Hm). rewrite He, Hm in F.
        enough (false = true) by discriminate. apply F, page_seq_In. lia. }
    assert (Mp : forall w1, w_vm w1 = w_vm (n_w s) -> mapped_range w1 (a / P) (npages t (a mod P + len)) = true).
    { intros w1 Hw. apply mapped_range_iff. intros p Ip. rewrite Hw. destruct (Hp p ltac:(lia)) as (e & He & _). eauto. }
    assert (Run : forall r0 s0, virtual_protect t a len PageReadWrite s = (r0, s0) ->
      (forall u, r0 = Ret u -> mw = true) /\ (forall x l, w_orc (n_w s) = Grant x :: l -> mw = true -> r0 = Ret tt)).
    { intros r0 s0 V. unfold virtual_protect, on_pages, call, ask in V. destruct (w_orc (n_w s)) as [|[c|x] l] eqn:O.
      - injection V as <- _. split; discriminate.
      - injection V as <- _. split; discriminate.
      - cbn [w_vm n_w with_w with_env set_orc] in V. rewrite (proj2 (Z.leb_gt len 0)) in V by lia.
        rewrite Mp in V by reflexivity. rewrite Chk in V by reflexivity. destruct mw; injection V as <- _; [auto|]. split; discriminate. }
    destruct r as [[]|e| | |]; [|destruct H as (y & H & ->)| | |]; destruct (Run _ _ H) as [R1 R2]; split; intros; try discriminate; eauto;
      specialize (R2 _ _ H0 H1); discriminate.
  Qed.

  Lemma to_mut_lemma k v g r g' : prog_ok t g -> g_tab g k = Some (TMap v) -> v_mut v = false -> 0 < m_len (v_map v) ->
    act_step t (AToMut k) g = (r, g') ->
    match r with
    | Ret _ => prot_writes (v_prot v) = true /\ (exists v', g_tab g' k = Some (TMap v') /\ same_thing (TMap v) (TMap v') /\ can_store (TMap v') = true)
    | Err e => e_op e = OpProtect /\ g_tab g' = g_tab g /\ same_space (g_s g) (g_s g')
    | _ => False
    end /\
    (forall x l, w_orc (n_w (g_s g)) = Grant x :: l -> r = Ret GNone <-> prot_writes (v_prot v) = true).
  Proof.
    intros Hg Hk Hm Hl H. pose proof (po_thing _ _ Hg _ _ Hk) as M. cbn in M.
    unfold act_step, with_map in H. rewrite Hk, Hm in H. unfold winto_map_mut, wconvert in H.
    assert (C : 0 < m_ptr (v_map v) mod P + m_len (v_map v)) by (pose proof (Z.mod_pos_bound (m_ptr (v_map v)) P HP); lia).
    pose proof (mo_back _ _ _ M C) as B. pose proof (whole_bounds (E:=error) q Hq _ _ _ _ _ _ B) as WB.
    change (size_bounds (E:=error) t P (m_ptr (v_map v)) (m_len (v_map v)) = Ret (P * first_page t (v_map v), P * page_count t (v_map v))) in WB.
    unfold wwhole, wbind, wout, size_page in H. rewrite WB in H. cbn [fst snd] in H.
    pose proof (page_count_pos q Hq _ _ _ _ _ _ B) as PC. change (page_count q (v_map v)) with (page_count t (v_map v)) in PC.
    assert (F0 : 0 <= first_page t (v_map v)).
    { unfold first_page. apply Z.div_pos; [|lia]. pose proof (bk_lo _ _ _ _ _ _ _ B). cbn in *. lia. }
    destruct (win_protect t (P * first_page t (v_map v)) (P * page_count t (v_map v)) ReadWrite (g_s g)) as [x s1] eqn:E.
    assert (Gr : (forall u, x = Ret u -> prot_writes (v_prot v) = true) /\
      (forall y l, w_orc (n_w (g_s g)) = Grant y :: l -> prot_writes (v_prot v) = true -> x = Ret tt)).
    { refine (protect_grants _ _ _ _ _ _ _ _ _ E); [nia|nia|]. intros p Hp.
      assert (D1 : P * first_page t (v_map v) / P = first_page t (v_map v)) by (rewrite Z.mul_comm; apply Z.div_mul; lia). rewrite D1 in Hp.
      assert (D2 : (P * first_page t (v_map v) + P * page_count t (v_map v) - 1) / P = first_page t (v_map v) + page_count t (v_map v) - 1).
      { replace (P * first_page t (v_map v) + P * page_count t (v_map v) - 1)
          with (P - 1 + (first_page t (v_map v) + page_count t (v_map v) - 1) * P) by lia. rewrite Z.div_add, Z.div_small by lia. lia. }
      rewrite D2 in Hp. destruct (bk_pages _ _ _ _ _ _ _ B p) as (e & He & _ & _ & _ & Em & _); [unfold own_page; change (first_page q) with (first_page t); change (page_count q) with (page_count t); lia|eauto]. }
    destruct Gr as [G1 G2]. apply (win_protect_spec t Ht) in E as [O E]; [|nia].
    destruct x as [[]|e| | |]; try contradiction; cbn [finish fst snd] in H.
    - assert (X : r = Ret GNone /\ g' = g_put g s1 k (Some (converted v true))) by (injection H; auto). destruct X as [-> ->].
      specialize (G1 tt eq_refl). split; [|intros; tauto]. split; [exact G1|]. unfold converted. eexists. cbn. rewrite put_same. split; [reflexivity|]. cbn. auto 10.
    - assert (X : r = Err e /\ g' = g_set g s1) by (injection H; auto). destruct X as [-> ->]. split.
      + destruct E as (E & c & ->). cbn. auto.
      + intros y l Hy. split; [discriminate|]. intros Hw. specialize (G2 _ _ Hy Hw). discriminate.
  Qed.
End Claims.
