(** Operations on a live map: page bounds, protection, flush, advice, locking,
    drop, loads and stores. *)
From Coq Require Import Lia.
From Verif Require Import Base ErrorModel SizeModel SizeProofs OsModel MapModel MapSpec OsProofs MapProofs MapCreate.

Section Ops.
  Variable t : target.
  Hypothesis Ht : posix_target t.
  Notation P := (t_page t).
  Let HP := P_pos t Ht.

  Lemma ptr_split m : m_ptr m = P * first_page t m + m_ptr m mod P /\ 0 <= m_ptr m mod P < P.
  Proof. unfold first_page. pose proof (page_div t Ht (m_ptr m)). lia. Qed.

  Lemma pages_mul a n : (P * a) mod P = 0 /\ P * a / P = a /\ npages t (P * n) = n.
  Proof.
    split; [rewrite Z.mul_comm; apply Z.mod_mul; lia|]. split; [rewrite Z.mul_comm; apply Z.div_mul; lia|].
    apply npages_mul, HP.
  Qed.

  Section Live.
    Variables (w : world) (m : mapping) (o off : Z) (shared maxw : bool).
    Hypothesis B : backed t w m o off shared maxw.

    Lemma page_count_pos : 0 < page_count t m.
    Proof. apply npages_pos; [exact HP|exact (bk_cnt _ _ _ _ _ _ _ B)]. Qed.

    Lemma map_end : m_ptr m + m_len m <= P * (first_page t m + page_count t m).
    Proof. unfold page_count. pose proof (npages_bounds t HP (m_ptr m mod P + m_len m)). pose proof (ptr_split m). lia. Qed.

    Lemma ptr_usize : is_usize t (m_ptr m).
    Proof. pose proof map_end. destruct B. split; lia. Qed.

    (** The page range of the whole map. *)
    Lemma whole_bounds {E} : size_bounds (E:=E) t P (m_ptr m) (m_len m) = Ret (P * first_page t m, P * page_count t m).
    Proof.
      pose proof map_end. pose proof (ptr_split m). pose proof (bk_len _ _ _ _ _ _ _ B). pose proof (bk_hi _ _ _ _ _ _ _ B).
      pose proof (bk_lo _ _ _ _ _ _ _ B). pose proof (npages_bounds t HP (m_ptr m mod P + m_len m)) as NB.
      assert (0 < first_page t m) by nia.
      rewrite (size_bounds_in t (bits_pos0 t Ht) P (P_pow2 t Ht) (P_word t Ht)).
      - unfold first_page, page_count, npages. do 2 f_equal. f_equal. f_equal. lia.
      - exact ptr_usize.
      - lia.
      - unfold page_count in *. nia.
    Qed.

    (** The page range of a sub-range lies inside the map. *)
    Lemma range_bounds {E} off' len : 0 <= off' -> 0 <= len -> off' + len <= m_len m ->
      exists a n, size_bounds (E:=E) t P (ptr_add t (m_ptr m) off') len = Ret (P * a, P * n) /\
        a = (m_ptr m + off') / P /\
        P * a <= m_ptr m + off' /\ m_ptr m + off' + len <= P * (a + n) /\
        0 <= n /\ first_page t m <= a /\ a + n <= first_page t m + page_count t m /\
        (0 < len -> P * (a + n) < m_ptr m + off' + len + P) /\
        (len = 0 -> n <= 1 /\ ((m_ptr m + off') mod P = 0 -> n = 0)).
    Proof.
      intros H1 H2 H3. pose proof map_end. pose proof (ptr_split m) as [S1 S2]. pose proof (bk_len _ _ _ _ _ _ _ B). pose proof (bk_hi _ _ _ _ _ _ _ B).
      pose proof (bk_lo _ _ _ _ _ _ _ B). pose proof page_count_pos as PC.
      assert (0 < first_page t m) by nia.
      assert (Ep : ptr_add t (m_ptr m) off' = m_ptr m + off').
      { unfold ptr_add, as_usize. apply Z.mod_small. lia. }
      rewrite Ep. set (q := m_ptr m + off') in *. pose proof (page_div t Ht q) as [D1 D2].
      assert (F : first_page t m <= q / P) by nia.
      pose proof (npages_bounds t HP (q mod P + len)) as NB.
      exists (q / P), (npages t (q mod P + len)). split.
      { rewrite (size_bounds_in t (bits_pos0 t Ht) P (P_pow2 t Ht) (P_word t Ht)); try (unfold is_usize; lia).
        do 2 f_equal. f_equal. unfold npages. f_equal. lia. }
      split; [reflexivity|]. split; [lia|]. split; [lia|].
      assert (N0 : 0 <= npages t (q mod P + len)) by nia. split; [exact N0|]. split; [exact F|]. split; [|split].
      - pose proof (npages_bounds t HP (m_ptr m mod P + m_len m)) as NM. fold (page_count t m) in NM.
        assert (Hz : 0 < len \/ len = 0) by lia. destruct Hz as [Hz|Hz]; [nia|]. subst len. rewrite Z.add_0_r in *.
        assert (Hq : q mod P = 0 \/ 0 < q mod P) by lia. destruct Hq as [Hq|Hq]; [nia|].
        assert (Hn : npages t (q mod P) = 1) by (apply npages_unique; lia). rewrite Hn in *.
        assert (Hc : q < P * (first_page t m + page_count t m)).
        { assert (Hl : q <= m_ptr m + m_len m) by lia.
          assert (q <> P * (first_page t m + page_count t m)); [|lia].
          intros Eq. rewrite Eq, Z.mul_comm, Z.mod_mul in Hq by lia. lia. }
        nia.
      - lia.
      - intros ->. rewrite Z.add_0_r in *. split; [nia|]. intros E0. rewrite E0 in *. nia.
    Qed.

    Lemma own_mapped a n p : first_page t m <= a -> a + n <= first_page t m + page_count t m -> a <= p < a + n ->
      exists e, w_vm w p = Some e /\ p_obj e = o /\ p_shared e = shared /\ p_maxw e = maxw.
    Proof.
      intros H1 H2 H3. destruct (bk_pages _ _ _ _ _ _ _ B p) as (e & E & Eo & _ & Es & Em & _); [unfold own_page; lia|].
      exists e. auto.
    Qed.

    (** The page a byte of the map lies on. *)
    Lemma byte_page i : 0 <= i < m_len m ->
      ptr_add t (m_ptr m) i = m_ptr m + i /\
      own_page t m ((m_ptr m + i) / P) /\
      off / P + ((m_ptr m + i) / P - first_page t m) = (off + i) / P /\
      (m_ptr m + i) mod P = (off + i) mod P.
    Proof.
      intros Hi. pose proof map_end as ME. pose proof (ptr_split m) as [S1 S2]. pose proof (bk_hi _ _ _ _ _ _ _ B).
      pose proof (bk_lo _ _ _ _ _ _ _ B). destruct (bk_off _ _ _ _ _ _ _ B) as [O1 O2].
      split; [unfold ptr_add, as_usize; apply Z.mod_small; nia|].
      pose proof (page_div t Ht (m_ptr m + i)) as [D1 D2]. pose proof (page_div t Ht off) as [D3 D4].
      split; [unfold own_page; nia|].
      assert (E : off + i = (m_ptr m + i) + (off / P - first_page t m) * P) by lia.
      rewrite E, Z.mod_add, Z.div_add by lia. split; [lia|reflexivity].
    Qed.

    Lemma byte_entry i : 0 <= i < m_len m -> exists e, w_vm w ((m_ptr m + i) / P) = Some e /\ p_obj e = o /\
      P * p_idx e + (m_ptr m + i) mod P = off + i /\ P * p_idx e <= off + i /\
      p_shared e = shared /\ p_maxw e = maxw /\ p_r e = true /\ (shared = true -> p_copy e = None).
    Proof.
      intros Hi. destruct (byte_page i Hi) as (_ & O & I1 & I2).
      destruct (bk_pages _ _ _ _ _ _ _ B _ O) as (e & E & Eo & Ei & Es & Em & Er & Ec).
      exists e. rewrite Ei, I1, I2. pose proof (page_div t Ht (off + i)) as [D1 D2]. repeat split; try assumption; lia.
    Qed.

    (** What a load through the map returns. *)
    Definition shown (i : Z) : byte :=
      match w_vm w ((m_ptr m + i) / P) with
      | Some e => match p_copy e with Some c => c ((m_ptr m + i) mod P) | None => o_data (w_obj w o) (off + i) end
      | None => 0
      end.

    Lemma get_spec i : 0 <= i < m_len m -> off + i < o_size (w_obj w o) -> map_get t m i w = (Ret (shown i), w).
    Proof.
      intros Hi Hs. destruct (byte_page i Hi) as (Ep & _). destruct (byte_entry i Hi) as (e & E & Eo & Ei & El & Es & Em & Er & Ec).
      unfold map_get. rewrite (proj2 (Z.leb_le 0 i)), (proj2 (Z.ltb_lt i (m_len m))) by lia. cbn [andb].
      rewrite Ep. unfold load, shown. rewrite E, Er, Eo. cbn [negb].
      destruct (Z.leb_spec (o_size (w_obj w o)) (P * p_idx e)); [lia|].
      unfold page_byte. rewrite Eo, Ei. destruct (p_copy e); reflexivity.
    Qed.

    Lemma get_outside i : ~ (0 <= i < m_len m) -> map_get t m i w = (Panic, w).
    Proof.
      intros Hi. unfold map_get. destruct (Z.leb_spec 0 i), (Z.ltb_spec i (m_len m)); try reflexivity. lia.
    Qed.
  End Live.

  Lemma shown_shared w m o off maxw i : backed t w m o off true maxw -> 0 <= i < m_len m ->
    shown w m o off i = o_data (w_obj w o) (off + i).
  Proof.
    intros B Hi. destruct (byte_entry w m o off true maxw B i Hi) as (e & E & _ & _ & _ & _ & _ & _ & Ec).
    unfold shown. rewrite E, (Ec eq_refl). reflexivity.
  Qed.

  (** ** Staying backed *)
  Definition kept (e e' : pte) : Prop :=
    p_obj e' = p_obj e /\ p_idx e' = p_idx e /\ p_shared e' = p_shared e /\ p_maxw e' = p_maxw e /\
    (p_r e = true -> p_r e' = true) /\ (p_w e = true -> p_w e' = true) /\ (p_shared e = true -> p_copy e = None -> p_copy e' = None).

  Lemma same_place_kept e e' : same_place e e' -> (p_copy e' = p_copy e \/ (p_copy e' = None /\ p_shared e = false)) -> kept e e'.
  Proof.
    intros (H1 & H2 & H3 & H4 & H5 & H6 & H7 & H8) C. unfold kept. repeat split; try congruence.
    intros Es En. destruct C as [C|[C _]]; congruence.
  Qed.

  Lemma backed_kept w w' m o off shared maxw : backed t w m o off shared maxw ->
    (forall p e, own_page t m p -> w_vm w p = Some e -> exists e', w_vm w' p = Some e' /\ kept e e') ->
    backed t w' m o off shared maxw.
  Proof.
    intros [L C Lo Hi Of Pg] K. split; try assumption.
    intros p Hp. destruct (Pg p Hp) as (e & E & Eo & Ei & Es & Em & Er & Ec).
    destruct (K p e Hp E) as (e' & E' & K1 & K2 & K3 & K4 & K5 & _ & K6).
    exists e'. split; [exact E'|]. rewrite K1, K2, K3, K4. repeat split; try assumption.
    - apply K5, Er.
    - intros S. apply K6; [congruence|apply Ec, S].
  Qed.

  Lemma backed_extends w w' m o off shared maxw : backed t w m o off shared maxw -> extends w w' ->
    backed t w' m o off shared maxw.
  Proof.
    intros B X. apply (backed_kept w); [exact B|]. intros p e _ He.
    destruct (ex_vm _ _ X p e He) as (e' & E' & S & C). exists e'. split; [exact E'|apply same_place_kept; assumption].
  Qed.

  (** ** System calls on a page range *)
  Lemma on_pages_spec a n ok f w r w' : on_range t (P * a) (P * n) ok f w = (r, w') ->
    match r with
    | Ret _ => (forall p, a <= p < a + n -> exists e, w_vm w p = Some e /\ ok e = Ret tt) /\
        (forall p, w_vm w' p = if in_pages a n p then option_map f (w_vm w p) else w_vm w p) /\ same_files w w'
    | Err _ => quiet w w'
    | _ => False
    end.
  Proof.
    intros H. apply on_range_spec in H. destruct (pages_mul a n) as (M1 & M2 & M3). rewrite M2, M3 in H.
    destruct r as [[]|e| | |]; try exact H. destruct H as (_ & H1 & H2 & O & N & F & S).
    split; [exact H1|]. split; [exact H2|]. split; assumption.
  Qed.

  Lemma munmap_pages a n w r w' : sys_munmap t (P * a) (P * n) w = (r, w') ->
    match r with
    | Ret _ => (forall p, w_vm w' p = if in_pages a n p then None else w_vm w p) /\ same_files w w'
    | Err _ => quiet w w'
    | _ => False
    end.
  Proof.
    intros H. apply munmap_spec in H. destruct (pages_mul a n) as (M1 & M2 & M3). rewrite M2, M3 in H.
    destruct r as [[]|e| | |]; try exact H. destruct H as (_ & _ & H2 & O & N & F & S).
    split; [exact H2|]. split; assumption.
  Qed.

  Lemma msync_pages a n sync w r w' : sys_msync t (P * a) (P * n) sync w = (r, w') ->
    match r with
    | Ret _ => w_vm w' = w_vm w /\ w_next w' = w_next w /\ w_fd w' = w_fd w /\ w_fs w' = w_fs w /\
        (forall o, o_size (w_obj w' o) = o_size (w_obj w o) /\ o_data (w_obj w' o) = o_data (w_obj w o) /\
           forall i, o_disk (w_obj w' o) i =
             if sync && syncs t w a n o i then o_data (w_obj w o) i else o_disk (w_obj w o) i)
    | Err _ => quiet w w'
    | _ => False
    end.
  Proof.
    intros H. apply msync_spec in H. destruct (pages_mul a n) as (M1 & M2 & M3). rewrite M2, M3 in H.
    destruct r as [[]|e| | |]; try exact H. destruct H as (_ & _ & H). exact H.
  Qed.

  (** ** The shape of the whole-map and sub-range calls *)
  Lemma whole_eq w m o off shared maxw f w0 : backed t w m o off shared maxw ->
    whole t m f w0 = f (P * first_page t m) (P * page_count t m) w0.
  Proof.
    intros B. unfold whole, sbind, sout, size_page. rewrite (whole_bounds _ _ _ _ _ _ B). reflexivity.
  Qed.

  Lemma ranged_cases w m o off shared maxw op off' len f w0 :
    backed t w m o off shared maxw -> is_usize t off' -> is_usize t len ->
    (off' + len < 2 ^ t_bits t \/ t_checks t = true) ->
    if off' + len <=? m_len m then
      exists a n, ranged t op m off' len f w0 = f (P * a) (P * n) w0 /\
        a = (m_ptr m + off') / P /\
        P * a <= m_ptr m + off' /\ m_ptr m + off' + len <= P * (a + n) /\
        0 <= n /\ first_page t m <= a /\ a + n <= first_page t m + page_count t m /\
        (0 < len -> P * (a + n) < m_ptr m + off' + len + P) /\
        (len = 0 -> n <= 1 /\ ((m_ptr m + off') mod P = 0 -> n = 0))
    else if off' + len <? 2 ^ t_bits t then ranged t op m off' len f w0 = (Err (error_input op InvalidRange), w0)
    else ranged t op m off' len f w0 = (Panic, w0).
  Proof.
    intros B [O1 O2] [L1 L2] Fit. pose proof (map_end m) as ME. pose proof (bk_hi _ _ _ _ _ _ _ B). pose proof (bk_lo _ _ _ _ _ _ _ B).
    unfold ranged, sbind, sout.
    destruct (Z.leb_spec (off' + len) (m_len m)) as [Le|Gt].
    - unfold uadd. rewrite wrap_in by lia. destruct (Z.ltb_spec (m_len m) (off' + len)); [lia|]. unfold size_page.
      destruct (range_bounds w m o off shared maxw B (E:=error) off' len O1 L1 Le) as (a & n & Eq & R).
      exists a, n. rewrite Eq. split; [reflexivity|exact R].
    - destruct (Z.ltb_spec (off' + len) (2 ^ t_bits t)) as [Lt|Ge].
      + unfold uadd. rewrite wrap_in by lia. destruct (Z.ltb_spec (m_len m) (off' + len)); [reflexivity|lia].
      + destruct Fit as [Fit|Fit]; [lia|]. unfold uadd. rewrite wrap_out by lia. rewrite Fit. reflexivity.
  Qed.

  (** ** Stores *)
  Lemma set_spec w m o off shared maxw i b : backed t w m o off shared maxw -> 0 <= i < m_len m ->
    exists e, w_vm w ((m_ptr m + i) / P) = Some e /\ own_page t m ((m_ptr m + i) / P) /\
    (off + i < o_size (w_obj w o) ->
     p_w e = true ->
     exists w', map_set t m i b w = (Ret tt, w') /\
       w_fd w' = w_fd w /\ w_fs w' = w_fs w /\ w_next w' = w_next w /\ w_orc w' = w_orc w /\
       if shared then w_vm w' = w_vm w /\ w_obj w' = put (w_obj w) o
           {| o_size := o_size (w_obj w o); o_data := upd (o_data (w_obj w o)) (off + i) b; o_disk := o_disk (w_obj w o) |}
       else w_obj w' = w_obj w /\ w_vm w' = put (w_vm w) ((m_ptr m + i) / P)
           (Some (set_copy (Some (upd (page_byte t w e) ((m_ptr m + i) mod P) b)) e))) /\
    (p_w e = false -> map_set t m i b w = (Fault, w)).
  Proof.
    intros B Hi. destruct (byte_page w m o off shared maxw B i Hi) as (Ep & Ow & _).
    destruct (byte_entry w m o off shared maxw B i Hi) as (e & E & Eo & Ei & El & Es & Em & Er & Ec).
    exists e. split; [exact E|]. split; [exact Ow|].
    assert (Q : map_set t m i b w = OsModel.store t (m_ptr m + i) b w).
    { unfold map_set. rewrite (proj2 (Z.leb_le 0 i)), (proj2 (Z.ltb_lt i (m_len m))) by lia. cbn [andb]. rewrite Ep. reflexivity. }
    rewrite Q. unfold OsModel.store. rewrite E. split.
    - intros Hs Hw. rewrite Hw, Eo. cbn [negb].
      destruct (Z.leb_spec (o_size (w_obj w o)) (P * p_idx e)); [lia|].
      rewrite Es, Ei. destruct shared.
      + rewrite (proj2 (Z.ltb_lt (off + i) (o_size (w_obj w o)))) by lia. eexists. split; [reflexivity|]. cbn. auto 10.
      + eexists. split; [reflexivity|]. cbn. auto 10.
    - intros ->. reflexivity.
  Qed.

  (** Whatever a store does, entries and sizes stay. *)
  Lemma store_effect {E} addr b w (r : out E unit) w' : OsModel.store t addr b w = (r, w') ->
    (r = Fault /\ w' = w) \/
    (r = Ret tt /\ w_fd w' = w_fd w /\ w_fs w' = w_fs w /\ w_next w' = w_next w /\
     exists e, w_vm w (addr / P) = Some e /\ p_w e = true /\
     (forall o, o_size (w_obj w' o) = o_size (w_obj w o) /\ o_disk (w_obj w' o) = o_disk (w_obj w o)) /\
     ((p_shared e = true /\ w_vm w' = w_vm w /\
       (forall o, o <> p_obj e -> w_obj w' o = w_obj w o) /\
       (forall i, i <> P * p_idx e + addr mod P -> o_data (w_obj w' (p_obj e)) i = o_data (w_obj w (p_obj e)) i)) \/
      (p_shared e = false /\ w_obj w' = w_obj w /\ exists c, w_vm w' = put (w_vm w) (addr / P) (Some (set_copy c e))))).
  Proof.
    unfold OsModel.store. destruct (w_vm w (addr / P)) as [e|] eqn:Ev; [|intros H; injection H as <- <-; auto].
    destruct (p_w e) eqn:Ew; cbn [negb]; [|intros H; injection H as <- <-; auto]. cbv zeta.
    destruct (o_size (w_obj w (p_obj e)) <=? P * p_idx e); [intros H; injection H as <- <-; auto|].
    destruct (p_shared e) eqn:Es; intros H; injection H as <- <-; right.
    - split; [reflexivity|].
      destruct (P * p_idx e + addr mod P <? o_size (w_obj w (p_obj e))); cbn.
      + split; [reflexivity|]. split; [reflexivity|]. split; [reflexivity|]. exists e. split; [reflexivity|]. split; [exact Ew|]. split.
        * intros o. unfold put. destruct (Z.eqb_spec o (p_obj e)) as [->|]; auto.
        * left. split; [exact Es|]. split; [reflexivity|]. split.
          -- intros o Ho. apply put_other, Ho.
          -- intros i Hi. rewrite put_same. cbn. unfold upd. apply Z.eqb_neq in Hi. rewrite Hi. reflexivity.
      + split; [reflexivity|]. split; [reflexivity|]. split; [reflexivity|]. exists e. split; [reflexivity|]. split; [exact Ew|]. split; [auto|]. left. auto.
    - cbn. split; [reflexivity|]. split; [reflexivity|]. split; [reflexivity|]. split; [reflexivity|].
      exists e. split; [reflexivity|]. split; [exact Ew|]. split; [auto|]. right. eauto.
  Qed.

  (** ** Drop *)
  Lemma drop_spec w m o off shared maxw w1 r w' : backed t w m o off shared maxw -> drop_map t m w1 = (r, w') ->
    r = Ret tt /\
    ((quiet w1 w' /\ (m_len m = 0 \/ exists x, snd (sys_munmap t (P * first_page t m) (P * page_count t m) w1) = w' /\
                      fst (sys_munmap t (P * first_page t m) (P * page_count t m) w1) = Err x)) \/
     (0 < m_len m /\ same_files w1 w' /\
      (forall p, own_page t m p -> w_vm w' p = None) /\ (forall p, ~ own_page t m p -> w_vm w' p = w_vm w1 p))).
  Proof.
    intros B. unfold drop_map. destruct (Z.ltb_spec 0 (m_len m)) as [Lt|Ge].
    - unfold size_alloc. rewrite (alloc_page t Ht), (whole_bounds _ _ _ _ _ _ B).
      destruct (os_unmap t (P * first_page t m) (P * page_count t m) w1) as [r1 w2] eqn:E.
      unfold os_unmap in E. apply os_call_inv in E.
      destruct r1 as [[]|e| | |]; try (apply munmap_pages in E; contradiction E); intros H; injection H as <- <-; (split; [reflexivity|]).
      + apply munmap_pages in E as [V SF]. right. split; [exact Lt|]. split; [exact SF|]. split; intros p Hp; rewrite V.
        * rewrite in_pages_yes by exact Hp. reflexivity.
        * rewrite in_pages_no by exact Hp. reflexivity.
      + destruct E as (x & E & ->). left. pose proof E as E'. apply munmap_pages in E. split; [exact E|]. right. exists x. rewrite E'. auto.
    - intros H. injection H as <- <-. split; [reflexivity|]. left. split; [apply quiet_refl|]. left. pose proof (bk_len _ _ _ _ _ _ _ B). lia.
  Qed.

  (** A granted munmap succeeds. *)
  Lemma munmap_grant a n w x q : 0 < n -> w_orc w = Grant x :: q -> exists w', sys_munmap t (P * a) (P * n) w = (Ret tt, w').
  Proof.
    intros Hn Ho. unfold sys_munmap, ask. rewrite Ho. destruct (pages_mul a n) as (M1 & _). rewrite M1. cbn [Z.eqb negb].
    destruct (Z.leb_spec (P * n) 0); [nia|]. cbn [orb]. eauto.
  Qed.
End Ops.
