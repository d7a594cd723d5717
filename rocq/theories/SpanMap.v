(** The scalar accessors on maps: the span of a live map is array-like, and a
    scalar write is a run of single stores. *)
From Coq Require Import Lia.
From Verif Require Import Base ErrorModel SizeModel SizeProofs SeqProofs OsModel MapModel MapSpec OsProofs MapProofs MapCreate MapOps
  ApiModel ApiSpec ApiProofs MapClaims MapClaims5 SpanModel SpanSpec SpanProofs.

(** The stores of a byte string from index [i] on. *)
Fixpoint place (i : Z) (l : bytes) : list (Z * byte) :=
  match l with [] => [] | b :: l => (i, b) :: place (i + 1) l end.

Section OnMaps.
  Variable t : target.
  Hypothesis Ht : posix_target t.
  Let P := t_page t.

  Lemma backed_span w m o off shared maxw : backed t w m o off shared maxw -> span_ok t m.
  Proof.
    intros B. pose proof (map_end t Ht m). pose proof (bk_hi _ _ _ _ _ _ _ B). pose proof (bk_lo _ _ _ _ _ _ _ B).
    pose proof (bk_len _ _ _ _ _ _ _ B). pose proof (P_pos t Ht). unfold span_ok. lia.
  Qed.

  Lemma load_get w m i : span_ok t m -> 0 <= i < m_len m -> OsModel.load t w (m_ptr m + i) = fst (map_get t m i w).
  Proof.
    intros Sp Hi. unfold map_get. rewrite (proj2 (Z.leb_le 0 i)), (proj2 (Z.ltb_lt i (m_len m))) by lia. cbn [andb fst].
    rewrite (at_ptr t m Sp) by exact Hi. reflexivity.
  Qed.
  Lemma store_set w m i b : span_ok t m -> 0 <= i < m_len m -> OsModel.store t (m_ptr m + i) b w = map_set t m i b w.
  Proof.
    intros Sp Hi. unfold map_set. rewrite (proj2 (Z.leb_le 0 i)), (proj2 (Z.ltb_lt i (m_len m))) by lia. cbn [andb].
    rewrite (at_ptr t m Sp) by exact Hi. reflexivity.
  Qed.

  (** States in which a map can be used fully. *)
  Definition usable (m : mapping) (o off : Z) (shared maxw : bool) (w : world) : Prop :=
    backed t w m o off shared maxw /\ off + m_len m <= o_size (w_obj w o) /\
    forall p e, own_page t m p -> w_vm w p = Some e -> p_w e = true.

  Lemma map_content w m o off shared maxw : backed t w m o off shared maxw -> off + m_len m <= o_size (w_obj w o) ->
    content (kernel_mem t) w m (shown t w m o off).
  Proof.
    intros B Sz i Hi. cbn. rewrite (load_get w m i (backed_span _ _ _ _ _ _ B) Hi), (get_spec t Ht _ _ _ _ _ _ B i Hi) by lia.
    reflexivity.
  Qed.

  Lemma map_array m o off shared maxw : array_like (kernel_mem t) m (usable m o off shared maxw).
  Proof.
    intros w f i b (B & Sz & Wr) C Hi. pose proof (backed_span _ _ _ _ _ _ B) as Sp.
    destruct (set_spec t Ht w m o off shared maxw i b B Hi) as (e & Ev & Ow & G & _).
    destruct (G ltac:(lia) (Wr _ _ Ow Ev)) as (w' & E & F & S & N & _ & V).
    exists w'. cbn [kernel_mem mem_store]. rewrite (store_set w m i b Sp Hi). split; [exact E|].
    assert (U : usable m o off shared maxw w').
    { destruct shared; destruct V as [V O].
      - split; [|split].
        + apply (backed_kept t w); [exact B|]. intros p x _ Ex. exists x. rewrite V. split; [exact Ex|]. unfold kept. tauto.
        + rewrite O, put_same. exact Sz.
        + intros p x Op Ex. rewrite V in Ex. exact (Wr p x Op Ex).
      - split; [|split].
        + apply (backed_kept t w); [exact B|]. intros p x Op Ex. rewrite O. unfold put.
          destruct (Z.eqb_spec p ((m_ptr m + i) / t_page t)) as [->|].
          * rewrite Ev in Ex. injection Ex as <-. eexists. split; [reflexivity|]. unfold kept. cbn.
            destruct (bk_pages _ _ _ _ _ _ _ B _ Op) as (e' & Ev' & _ & _ & Es & _). rewrite Ev in Ev'. injection Ev' as <-.
            rewrite Es. repeat split; auto. discriminate.
          * exists x. split; [exact Ex|]. unfold kept. tauto.
        + rewrite V. exact Sz.
        + intros p x Op Ex. rewrite O in Ex. unfold put in Ex. destruct (Z.eqb_spec p ((m_ptr m + i) / t_page t)) as [->|].
          * injection Ex as <-. cbn. exact (Wr _ _ Op Ev).
          * exact (Wr p x Op Ex). }
    split; [exact U|].
    assert (Sh : forall j, 0 <= j < m_len m -> shown t w' m o off j = if j =? i then b else shown t w m o off j).
    { intros j Hj. pose proof (page_div t Ht (m_ptr m + i)) as [D1 D2]. pose proof (page_div t Ht (m_ptr m + j)) as [D3 D4].
      destruct shared; destruct V as [V O].
      - rewrite (shown_shared t Ht w m o off maxw j B Hj), (shown_shared t Ht w' m o off maxw j (proj1 U) Hj). rewrite O, put_same. cbn.
        unfold upd. destruct (Z.eqb_spec (off + j) (off + i)), (Z.eqb_spec j i); try lia; reflexivity.
      - unfold shown. rewrite O. unfold put. destruct (Z.eqb_spec ((m_ptr m + j) / t_page t) ((m_ptr m + i) / t_page t)) as [Eq|Ne].
        + rewrite Eq, Ev. cbn. unfold upd. destruct (Z.eqb_spec ((m_ptr m + j) mod t_page t) ((m_ptr m + i) mod t_page t)), (Z.eqb_spec j i); try lia.
          unfold page_byte. destruct (byte_entry t Ht w m o off false maxw B j Hj) as (e' & Ev' & Eo & Ei & _).
          rewrite Eq, Ev in Ev'. injection Ev' as <-. rewrite Eo, Ei. reflexivity.
        + destruct (Z.eqb_spec j i); [subst j; lia|]. rewrite V. reflexivity. }
    intros j Hj. destruct U as (B' & Sz' & _). rewrite (map_content w' m o off shared maxw B' Sz' j Hj), Sh by exact Hj.
    unfold upd. destruct (j =? i); [reflexivity|].
    pose proof (C j Hj) as Cj. rewrite (map_content w m o off shared maxw B Sz j Hj) in Cj. injection Cj as Cj. rewrite Cj. reflexivity.
  Qed.

  (** The maps of a program that never shortens files and only makes
      [MapMut]s that may be written. *)
  Lemma live_usable a k l : whole_life t a -> writable t a -> a_live a k = Some l -> l_mut l = true ->
    usable (l_map l) (l_obj l) (l_off l) (l_shared l) (l_maxw l) (a_w a).
  Proof.
    intros [OK _ Fi] Wr Hl Hm. pose proof (Fi k l Hl). split; [exact (ok_live _ _ OK k l Hl)|]. split; [lia|].
    intros p e Op Ev. exact (Wr k l p e Hl Hm Op Ev).
  Qed.

  (** A successful run of byte stores is a run of [CSet] calls. *)
  Lemma store_run k l : forall bs i a w', a_live a k = Some l -> l_mut l = true -> span_ok t (l_map l) ->
    0 <= i -> i + zlen bs <= m_len (l_map l) ->
    store_bytes t (kernel_mem t) (m_ptr (l_map l) + i) bs (a_w a) = (Ret tt, w') ->
    run t (stores k (place i bs)) a = set_w a w'.
  Proof.
    induction bs as [|b bs IH]; intros i a w' Hl Hm Sp Hi Hz H.
    - cbn in *. injection H as <-. destruct a; reflexivity.
    - rewrite zlen_cons in Hz. pose proof (zlen_nonneg bs). cbn [place stores run].
      cbn [store_bytes kernel_mem mem_store] in H. rewrite (store_set _ _ i b Sp ltac:(lia)) in H.
      destruct (map_set t (l_map l) i b (a_w a)) as [r1 w1] eqn:E.
      destruct r1 as [[]|e| | |]; try discriminate H.
      assert (St : step t (CSet k i b) a = (Ret SNone, set_w a w1)).
      { cbn [step]. unfold with_map. rewrite Hl, Hm, E. reflexivity. }
      rewrite St. cbn [snd].
      destruct bs as [|c bs].
      + cbn in *. injection H as <-. reflexivity.
      + rewrite zlen_cons in *. pose proof (zlen_nonneg bs). destruct Sp as (S1 & S2 & S3).
        replace (ptr_add t (m_ptr (l_map l) + i) 1) with (m_ptr (l_map l) + (i + 1)) in H.
        2:{ unfold ptr_add, as_usize. rewrite Z.mod_small; lia. }
        specialize (IH (i + 1) (set_w a w1) w' Hl Hm ltac:(split; [|split]; lia) ltac:(lia) ltac:(lia) H).
        rewrite IH. reflexivity.
  Qed.

  (** What a run of shared stores does to the file. *)
  Lemma place_through k l : forall bs i a w', api_ok t a -> a_live a k = Some l -> l_mut l = true -> l_shared l = true ->
    0 <= i -> i + zlen bs <= m_len (l_map l) -> l_off l + m_len (l_map l) <= o_size (w_obj (a_w a) (l_obj l)) ->
    store_bytes t (kernel_mem t) (m_ptr (l_map l) + i) bs (a_w a) = (Ret tt, w') ->
    w_vm w' = w_vm (a_w a) /\
    (forall o, o_size (w_obj w' o) = o_size (w_obj (a_w a) o) /\ o_disk (w_obj w' o) = o_disk (w_obj (a_w a) o)) /\
    (forall o j, o_data (w_obj w' o) j =
       if (o =? l_obj l) && (l_off l + i <=? j) && (j <? l_off l + i + zlen bs) then nth (Z.to_nat (j - (l_off l + i))) bs 0
       else o_data (w_obj (a_w a) o) j).
  Proof.
    induction bs as [|b bs IH]; intros i a w' OK Hl Hm Hs Hi Hz Sz H.
    - cbn in H. injection H as <-. split; [reflexivity|]. split; [auto|]. intros o j. change (zlen (@nil byte)) with 0.
      destruct (o =? l_obj l); cbn [andb]; [|reflexivity].
      destruct (Z.leb_spec (l_off l + i) j), (Z.ltb_spec j (l_off l + i + 0)); try reflexivity. lia.
    - rewrite zlen_cons in *. pose proof (zlen_nonneg bs). cbn [store_bytes kernel_mem mem_store] in H.
      pose proof (backed_span _ _ _ _ _ _ (ok_live _ _ OK k l Hl)) as Sp. rewrite (store_set _ _ i b Sp ltac:(lia)) in H.
      destruct (map_set t (l_map l) i b (a_w a)) as [r1 w1] eqn:E.
      destruct r1 as [[]|e| | |]; try discriminate H.
      assert (St : step t (CSet k i b) a = (Ret SNone, set_w a w1)).
      { cbn [step]. unfold with_map. rewrite Hl, Hm, E. reflexivity. }
      destruct (write_through t Ht a k l i b _ OK Hl Hm Hs ltac:(lia) ltac:(lia) St) as (La & V & _ & _ & Z & D). cbn [a_w set_w] in *.
      pose proof (step_ok t Ht (CSet k i b) a OK Logic.I) as OK1. rewrite St in OK1. cbn [snd] in OK1.
      destruct bs as [|c bs].
      + cbn in H. injection H as <-. split; [exact V|]. split; [exact Z|]. intros o j. rewrite D. change (zlen (@nil byte)) with 0.
        destruct (o =? l_obj l); cbn [andb]; [|reflexivity].
        destruct (Z.eqb_spec j (l_off l + i)), (Z.leb_spec (l_off l + i) j), (Z.ltb_spec j (l_off l + i + (1 + 0))); try lia; cbn [andb]; try reflexivity.
        subst j. rewrite Z.sub_diag. reflexivity.
      + rewrite zlen_cons in *. pose proof (zlen_nonneg bs). destruct Sp as (S1 & S2 & S3).
        replace (ptr_add t (m_ptr (l_map l) + i) 1) with (m_ptr (l_map l) + (i + 1)) in H.
        2:{ unfold ptr_add, as_usize. rewrite Z.mod_small; lia. }
        destruct (IH (i + 1) (set_w a w1) w' OK1 Hl Hm Hs ltac:(lia) ltac:(lia) ltac:(cbn; rewrite (proj1 (Z (l_obj l))); exact Sz) H) as (V2 & Z2 & D2).
        cbn [a_w set_w] in *. split; [congruence|]. split; [intros o; destruct (Z o), (Z2 o); split; congruence|].
        intros o j. rewrite D2, D. set (n := zlen bs) in *. destruct (Z.eqb_spec o (l_obj l)); cbn [andb]; [|reflexivity].
        destruct (Z.leb_spec (l_off l + (i + 1)) j), (Z.ltb_spec j (l_off l + (i + 1) + (1 + n))), (Z.leb_spec (l_off l + i) j),
          (Z.ltb_spec j (l_off l + i + (1 + (1 + n)))), (Z.eqb_spec j (l_off l + i)); try lia; cbn [andb]; try reflexivity.
        * replace (Z.to_nat (j - (l_off l + i))) with (Datatypes.S (Z.to_nat (j - (l_off l + (i + 1))))) by lia. reflexivity.
        * subst j. rewrite Z.sub_diag. reflexivity.
  Qed.

  Variable B : abi.

  Lemma encode_zlen ty v : zlen (encode t B ty v) = size_of t ty.
  Proof. unfold zlen. rewrite encode_length. pose proof (size_of_pos t (proj1 Ht) ty). lia. Qed.

  Lemma map_write a k l ty off v : whole_life t a -> writable t a -> a_live a k = Some l -> l_mut l = true ->
    0 <= off -> off + size_of t ty <= m_len (l_map l) ->
    exists w', write_unaligned t B (kernel_mem t) (l_map l) ty off v (a_w a) = (Ret tt, w') /\
      run t (stores k (place off (encode t B ty v))) a = set_w a w' /\
      (value_ok (is_signed ty) (size_of t ty) v ->
       read_unaligned t B (kernel_mem t) (l_map l) ty off w' = (Ret v, w')) /\
      (forall i, 0 <= i < m_len (l_map l) -> read_at t (set_w a w') k i =
         if (off <=? i) && (i <? off + size_of t ty) then Ret (SByte (byte_of (big_endian B) (size_of t ty) v (i - off)))
         else read_at t a k i) /\
      (if l_shared l then
         w_vm w' = w_vm (a_w a) /\
         forall o j, o_data (w_obj w' o) j =
           if (o =? l_obj l) && (l_off l + off <=? j) && (j <? l_off l + off + size_of t ty)
           then byte_of (big_endian B) (size_of t ty) v (j - (l_off l + off)) else o_data (w_obj (a_w a) o) j
       else w_obj w' = w_obj (a_w a) /\ forall k' i', k' <> k -> read_at t (set_w a w') k' i' = read_at t a k' i').
  Proof.
    intros WL Wr Hl Hm O Le. pose proof (live_usable a k l WL Wr Hl Hm) as U. destruct WL as [OK _ Fi]. pose proof (Fi k l Hl) as Sz.
    destruct U as (Bk & _). pose proof (backed_span _ _ _ _ _ _ Bk) as Sp.
    assert (U : usable (l_map l) (l_obj l) (l_off l) (l_shared l) (l_maxw l) (a_w a)).
    { split; [exact Bk|]. split; [lia|]. intros p e Op Ev. exact (Wr k l p e Hl Hm Op Ev). }
    pose proof (map_content _ _ _ _ _ _ Bk Sz) as C.
    destruct (write_unaligned_spec t (proj1 Ht) B (kernel_mem t) (l_map l) Sp ty off O Le _ v (a_w a) _
      (map_array (l_map l) (l_obj l) (l_off l) (l_shared l) (l_maxw l)) U C) as (w' & E & U' & C').
    exists w'. split; [exact E|].
    assert (St : store_bytes t (kernel_mem t) (m_ptr (l_map l) + off) (encode t B ty v) (a_w a) = (Ret tt, w')).
    { unfold write_unaligned in E. rewrite (inside_capacity t (proj1 Ht) (l_map l) Sp ty off O Le) in E. cbn [after] in E.
      rewrite (off_ptr t (proj1 Ht) (l_map l) Sp ty off O Le) in E. exact E. }
    pose proof (encode_zlen ty v) as Ez.
    pose proof (store_run k l (encode t B ty v) off a w' Hl Hm Sp O ltac:(lia) St) as Run.
    split; [exact Run|]. split.
    { intros V. rewrite (read_unaligned_spec t (proj1 Ht) B _ _ Sp ty off O Le w' _ C').
      rewrite (view_over t (proj1 Ht) B ty off _ _ v eq_refl). rewrite (decode_encode t (proj1 Ht) B ty v V). reflexivity. }
    split.
    { intros i Hi. rewrite (read_at_live t (set_w a w') k l i Hl), (read_at_live t a k l i Hl). cbn [a_w set_w].
      rewrite <- (load_get w' _ i Sp Hi), <- (load_get (a_w a) _ i Sp Hi).
      pose proof (C' i Hi) as X'. pose proof (C i Hi) as X. cbn [kernel_mem mem_load] in X, X'. rewrite X, X'. unfold over.
      destruct ((off <=? i) && (i <? off + size_of t ty)); reflexivity. }
    destruct (l_shared l) eqn:Hs.
    - destruct (place_through k l (encode t B ty v) off a w' OK Hl Hm Hs O ltac:(lia) ltac:(lia) St) as (V & _ & D). split; [exact V|].
      intros o j. rewrite D, Ez. destruct (o =? l_obj l); cbn [andb]; [|reflexivity].
      destruct (Z.leb_spec (l_off l + off) j), (Z.ltb_spec j (l_off l + off + size_of t ty)); cbn [andb]; try reflexivity.
      apply encode_nth. lia.
    - destruct (copy_history t Ht k l (place off (encode t B ty v)) a OK Hl Hm Hs) as (_ & _ & Ob & Rd). rewrite Run in *. auto.
  Qed.

  (** Every access of a live map, completely. *)
  Lemma map_access a k l ty off x : whole_life t a -> writable t a -> a_live a k = Some l ->
    (l_mut l = true \/ match x with WriteVolatile _ | WriteUnaligned _ => False | _ => True end) ->
    is_usize t off -> (off + size_of t ty < 2 ^ t_bits t \/ t_checks t = true) ->
    exists w', perform t B (kernel_mem t) (l_map l) ty off x (a_w a) =
      (if (off + size_of t ty <=? m_len (l_map l)) && (negb (is_volatile x) || ((m_ptr (l_map l) + off) mod align_of B ty =? 0))
       then Ret tt else Panic, w').
  Proof.
    intros WL Wr Hl Mu O Fit. pose proof WL as [OK _ Fi]. pose proof (Fi k l Hl) as Sz.
    pose proof (ok_live _ _ OK k l Hl) as Bk. pose proof (backed_span _ _ _ _ _ _ Bk) as Sp.
    destruct (Z.leb_spec (off + size_of t ty) (m_len (l_map l))) as [Le|Gt]; cbn [andb].
    2:{ exists (a_w a). apply (outside t (proj1 Ht)); try assumption. destruct Sp as (S1 & S2 & S3). split; lia. }
    assert (O0 : 0 <= off) by apply O.
    pose proof (map_content _ _ _ _ _ _ Bk Sz) as C.
    assert (R : exists v, read_unaligned t B (kernel_mem t) (l_map l) ty off (a_w a) = (Ret v, a_w a)).
    { eexists. apply (read_unaligned_spec t (proj1 Ht) B _ _ Sp ty off O0 Le _ _ C). }
    destruct R as (v0 & R).
    assert (W : l_mut l = true -> forall v, exists w', write_unaligned t B (kernel_mem t) (l_map l) ty off v (a_w a) = (Ret tt, w')).
    { intros Hm v. destruct (map_write a k l ty off v WL Wr Hl Hm O0 Le) as (w' & E & _). eauto. }
    destruct x as [| |v|v]; cbn [perform is_volatile negb orb].
    - rewrite (read_volatile_spec t (proj1 Ht) B _ _ Sp ty off O0 Le _ _ C). destruct (_ =? 0); [rewrite R|]; cbn; eauto.
    - rewrite R. cbn. eauto.
    - destruct Mu as [Hm|[]]. rewrite (write_volatile_spec t (proj1 Ht) B _ _ Sp ty off O0 Le). destruct (_ =? 0); [apply W, Hm|eauto].
    - destruct Mu as [Hm|[]]. apply W, Hm.
  Qed.
End OnMaps.
