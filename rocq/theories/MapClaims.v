(** The mapping properties, one lemma (or more) per property. *)
From Coq Require Import Lia.
From Verif Require Import Base ErrorModel SizeModel SizeProofs OsModel MapModel MapSpec OsProofs MapProofs MapCreate MapOps ApiModel ApiSpec ApiProofs.

(** What a load depends on. *)
Definition same_entry (e e' : pte) : Prop :=
  p_obj e' = p_obj e /\ p_idx e' = p_idx e /\ p_r e' = p_r e /\ p_copy e' = p_copy e.
Definition same_page (x x' : option pte) : Prop :=
  match x, x' with Some e, Some e' => same_entry e e' | None, None => True | _, _ => False end.
Lemma same_page_refl x : same_page x x.
Proof. destruct x; cbn; [repeat split|exact I]. Qed.

Lemma load_same {E} t w w' addr : same_page (w_vm w (addr / t_page t)) (w_vm w' (addr / t_page t)) ->
  (forall o, o_size (w_obj w' o) = o_size (w_obj w o) /\ o_data (w_obj w' o) = o_data (w_obj w o)) ->
  OsModel.load (E:=E) t w' addr = OsModel.load t w addr.
Proof.
  intros V O. unfold OsModel.load, page_byte.
  destruct (w_vm w (addr / t_page t)) as [e|], (w_vm w' (addr / t_page t)) as [e'|]; try contradiction; [|reflexivity].
  destruct V as (-> & -> & -> & ->). destruct (O (p_obj e)) as [-> ->]. reflexivity.
Qed.

(** What a program sees at index [i] of map [k]. *)
Definition read_at (t : target) (a : api) (k i : Z) : out error seen := fst (step t (CGet k i) a).

Lemma read_at_live t a k l i : a_live a k = Some l ->
  read_at t a k i = match fst (map_get t (l_map l) i (a_w a)) with
                    | Ret b => Ret (SByte b) | Err e => Err e | Panic => Panic | Fault => Fault | Blocked => Blocked end.
Proof.
  intros H. unfold read_at. cbn [step]. unfold with_map. rewrite H.
  destruct (map_get t (l_map l) i (a_w a)) as [[b|e| | |] w']; reflexivity.
Qed.
Lemma read_same t a a' k l l' i : a_live a k = Some l -> a_live a' k = Some l' -> l_map l' = l_map l ->
  (0 <= i < m_len (l_map l) ->
    same_page (w_vm (a_w a) (ptr_add t (m_ptr (l_map l)) i / t_page t)) (w_vm (a_w a') (ptr_add t (m_ptr (l_map l)) i / t_page t))) ->
  (forall o, o_size (w_obj (a_w a') o) = o_size (w_obj (a_w a) o) /\ o_data (w_obj (a_w a') o) = o_data (w_obj (a_w a) o)) ->
  read_at t a' k i = read_at t a k i.
Proof.
  intros H H' E V O. rewrite (read_at_live t a k l i H), (read_at_live t a' k l' i H'), E. unfold map_get.
  destruct ((0 <=? i) && (i <? m_len (l_map l))) eqn:B; [|reflexivity].
  apply andb_prop in B as [B1 B2]. apply Z.leb_le in B1. apply Z.ltb_lt in B2. cbn [fst].
  rewrite (load_same t (a_w a) (a_w a') _ (V (conj B1 B2)) O). reflexivity.
Qed.

Section Claims.
  Variable t : target.
  Hypothesis Ht : posix_target t.
  Notation P := (t_page t).

  (** ** C06, C07, C09: creating a file map *)
  Section FileMap.
    Variables (o : options) (fd : Z) (f : fdent) (w w' : world) (r : out error (option mapping)).
    Hypothesis W : wf w.
    Hypothesis O : options_ok t o.
    Hypothesis Hf : w_fd w fd = Some f.
    Hypothesis H : map_if t o fd w = (r, w').
    Let ob := fd_obj f.
    Let L := final_len (op_truncate o) (op_resize o) (o_size (w_obj w ob) mod 2 ^ t_bits t).

    Lemma extent_lemma :
      match r with
      | Ret None => out_of_file (op_len o) (op_offset o) L
      | Ret (Some m) => ~ out_of_file (op_len o) (op_offset o) L /\ right_len (op_len o) (op_offset o) L (m_len m)
      | Err e => e_op e = MapFile
      | _ => False
      end.
    Proof.
      pose proof (map_if_spec t Ht o fd w r w' W O H) as M. rewrite Hf in M. destruct M as (w1 & FD & M).
      destruct r as [[m|]|e| | |]; try contradiction M.
      - destruct M as (L' & [_ EL _ _ _] & N & R & _). unfold as_usize in EL. fold ob in EL. fold L in EL. subst L'. auto.
      - destruct M as (L' & _ & [_ EL _ _ _] & N). unfold as_usize in EL. fold ob in EL. fold L in EL. subst L'. exact N.
      - exact (proj1 M).
    Qed.

    Lemma file_len_lemma : (forall e, r <> Err e) -> is_usize t (o_size (w_obj w ob)) ->
      L = final_len (op_truncate o) (op_resize o) (o_size (w_obj w ob)) /\
      o_size (w_obj w' ob) = L /\
      (forall i, 0 <= i < L -> o_data (w_obj w' ob) i =
         if i <? kept_len (op_truncate o) (op_resize o) (o_size (w_obj w ob)) then o_data (w_obj w ob) i else 0).
    Proof.
      intros Nr U. pose proof (map_if_spec t Ht o fd w r w' W O H) as M. rewrite Hf in M. destruct M as (w1 & FD & M). fold ob in FD, M.
      assert (X : exists L', file_right t o ob w w1 L' /\ w_obj w' = w_obj w1).
      { destruct r as [[m|]|e| | |]; try contradiction M.
        - destruct M as (L' & FR & _ & _ & _ & _ & SF). exists L'. split; [exact FR|exact (sf_obj _ _ SF)].
        - destruct M as (L' & -> & FR & _). eauto.
        - elim (Nr e). reflexivity. }
      destruct X as (L' & [UL EL LL SL DL] & Ob). unfold as_usize in EL. fold L in EL. subst L'. rewrite Ob.
      split; [unfold L; rewrite Z.mod_small by exact U; reflexivity|]. split; [exact (SL U)|].
      intros i Hi. apply (DL U). lia.
    Qed.

    Lemma others_lemma : forall ob', ob' <> ob -> w_obj w' ob' = w_obj w ob'.
    Proof.
      intros ob' Ho. pose proof (map_if_spec t Ht o fd w r w' W O H) as M. rewrite Hf in M. destruct M as (w1 & FD & M). fold ob in FD, M.
      rewrite <- (tc_obj _ _ _ (fdn_touched _ _ _ _ _ FD) ob' Ho).
      destruct r as [[m|]|e| | |]; try contradiction M.
      - destruct M as (L' & _ & _ & _ & _ & _ & SF). rewrite (sf_obj _ _ SF). reflexivity.
      - destruct M as (L' & -> & _). reflexivity.
      - rewrite (q_obj _ _ (proj2 M)). reflexivity.
    Qed.

    Lemma shows_lemma m : r = Ret (Some m) -> forall i, 0 <= i < m_len m ->
      op_offset o + i < o_size (w_obj w' ob) /\
      map_get t m i w' = (Ret (o_data (w_obj w' ob) (op_offset o + i)), w').
    Proof.
      intros Er i Hi. pose proof (map_if_spec t Ht o fd w r w' W O H) as M. rewrite Hf, Er in M.
      destruct M as (w1 & FD & L' & FR & N & R & _ & C & SF). fold ob in FD, FR, C.
      pose proof (cr_backed _ _ _ _ _ _ _ _ C) as B.
      assert (In : op_offset o + i < o_size (w_obj w' ob)).
      { rewrite (sf_obj _ _ SF). pose proof (fr_le _ _ _ _ _ _ FR) as LL.
        assert (op_offset o + m_len m <= L'); [|lia].
        unfold out_of_file, right_len in *. destruct (op_len o) as [|n|n|n]; try lia.
        - destruct (Z_lt_le_dec L' (op_offset o + n)) as [X|X]; [|lia]. elim N. right. exists n. auto. }
      split; [exact In|]. rewrite (get_spec t Ht _ _ _ _ _ _ B i Hi In). do 2 f_equal.
      destruct (byte_page t Ht _ _ _ _ _ _ B i Hi) as (_ & Ow & _).
      destruct (byte_entry t Ht _ _ _ _ _ _ B i Hi) as (e & E & _).
      unfold shown. rewrite E. rewrite (proj1 (cr_fresh _ _ _ _ _ _ _ _ C _ e Ow E)). reflexivity.
    Qed.
  End FileMap.

  (** ** C08 *)
  Lemma map_agrees o fd w :
    map_ t o fd w = match map_if t o fd w with
                    | (Ret (Some m), w') => (Ret m, w')
                    | (Ret None, w') => (Err {| e_repr := RInput InvalidRange; e_op := MapFile |}, w')
                    | (Err e, w') => (Err e, w')
                    | (Panic, w') => (Panic, w')
                    | (Fault, w') => (Fault, w')
                    | (Blocked, w') => (Blocked, w')
                    end.
  Proof. unfold map_, sbind. destruct (map_if t o fd w) as [[[m|]|e| | |] w']; reflexivity. Qed.
  Lemma open_agrees o path w :
    open_ t o path w = match open_if t o path w with
                       | (Ret (Some m, fd), w') => (Ret (m, fd), w')
                       | (Ret (None, fd), w') => (Err {| e_repr := RInput InvalidRange; e_op := MapFile |}, set_fd w' (put (w_fd w') fd None))
                       | (Err e, w') => (Err e, w')
                       | (Panic, w') => (Panic, w')
                       | (Fault, w') => (Fault, w')
                       | (Blocked, w') => (Blocked, w')
                       end.
  Proof.
    unfold open_, open_if, sbind, closing. destruct (io_call (file_open t (op_open o) path) w) as [[fd|e| | |] w1]; try reflexivity.
    rewrite map_agrees. destruct (map_if t o fd w1) as [[[m|]|e| | |] w']; reflexivity.
  Qed.

  (** ** C10, C11: stores *)
  Lemma step_set a k l i b r a' : a_live a k = Some l -> l_mut l = true -> step t (CSet k i b) a = (r, a') ->
    a' = set_w a (a_w a') /\ exists r1, map_set t (l_map l) i b (a_w a) = (r1, a_w a') /\ (r = Ret SNone <-> r1 = Ret tt) /\
    (r = Panic <-> r1 = Panic) /\ (r = Fault <-> r1 = Fault).
  Proof.
    intros Hl Hm H. cbn [step] in H. unfold with_map in H. rewrite Hl, Hm in H.
    destruct (map_set t (l_map l) i b (a_w a)) as [r1 w1]. injection H as <- <-. split; [reflexivity|]. exists r1.
    split; [reflexivity|]. destruct r1 as [[]|e| | |]; repeat split; intros X; try discriminate X; reflexivity.
  Qed.

  Lemma write_through a k l i b a' : api_ok t a -> a_live a k = Some l -> l_mut l = true -> l_shared l = true ->
    0 <= i < m_len (l_map l) -> l_off l + i < o_size (w_obj (a_w a) (l_obj l)) ->
    step t (CSet k i b) a = (Ret SNone, a') ->
    a_live a' = a_live a /\ w_vm (a_w a') = w_vm (a_w a) /\ w_fd (a_w a') = w_fd (a_w a) /\ w_fs (a_w a') = w_fs (a_w a) /\
    (forall o, o_size (w_obj (a_w a') o) = o_size (w_obj (a_w a) o) /\ o_disk (w_obj (a_w a') o) = o_disk (w_obj (a_w a) o)) /\
    (forall o j, o_data (w_obj (a_w a') o) j =
       if (o =? l_obj l) && (j =? l_off l + i) then b else o_data (w_obj (a_w a) o) j).
  Proof.
    intros OK Hl Hm Hs Hi Hz H. destruct (step_set _ _ _ _ _ _ _ Hl Hm H) as (Ea & r1 & E & R & _).
    pose proof (ok_live _ _ OK k l Hl) as B. rewrite Hs in B.
    destruct (set_spec t Ht _ _ _ _ _ _ i b B Hi) as (e & Ev & Ow & G & Bad).
    destruct (p_w e) eqn:Ew.
    2:{ rewrite (Bad eq_refl) in E. injection E as <- _. destruct R as [R _]. specialize (R eq_refl). discriminate R. }
    destruct (G Hz eq_refl) as (w1 & E1 & F & S & N & _ & V & Ob). rewrite E in E1. injection E1 as _ E1. rewrite <- E1 in *.
    split; [rewrite Ea; reflexivity|]. split; [exact V|]. split; [exact F|]. split; [exact S|]. split.
    - intros o. rewrite Ob. unfold put. destruct (Z.eqb_spec o (l_obj l)) as [->|]; auto.
    - intros o j. rewrite Ob. unfold put, upd. destruct (Z.eqb_spec o (l_obj l)) as [->|]; cbn; [|reflexivity].
      destruct (j =? l_off l + i); reflexivity.
  Qed.

  (** Reading a shared map in the file. *)
  Lemma read_shared a k l i : api_ok t a -> a_live a k = Some l -> l_shared l = true -> 0 <= i < m_len (l_map l) ->
    l_off l + i < o_size (w_obj (a_w a) (l_obj l)) ->
    read_at t a k i = Ret (SByte (o_data (w_obj (a_w a) (l_obj l)) (l_off l + i))).
  Proof.
    intros OK Hl Hs Hi Hz. pose proof (ok_live _ _ OK k l Hl) as B. rewrite Hs in B.
    rewrite (read_at_live t a k l i Hl), (get_spec t Ht _ _ _ _ _ _ B i Hi Hz). cbn [fst].
    rewrite (shown_shared t Ht _ _ _ _ _ i B Hi). reflexivity.
  Qed.

  Lemma write_seen a k l i b a' k' l' i' : api_ok t a -> a_live a k = Some l -> l_mut l = true -> l_shared l = true ->
    0 <= i < m_len (l_map l) -> l_off l + i < o_size (w_obj (a_w a) (l_obj l)) ->
    step t (CSet k i b) a = (Ret SNone, a') ->
    a_live a k' = Some l' -> l_shared l' = true -> 0 <= i' < m_len (l_map l') -> l_off l' + i' < o_size (w_obj (a_w a) (l_obj l')) ->
    read_at t a' k' i' =
      if (l_obj l' =? l_obj l) && (l_off l' + i' =? l_off l + i) then Ret (SByte b) else read_at t a k' i'.
  Proof.
    intros OK Hl Hm Hs Hi Hz H Hl' Hs' Hi' Hz'.
    assert (OK' : api_ok t a').
    { pose proof (step_ok t Ht (CSet k i b) a OK I) as X. rewrite H in X. exact X. }
    destruct (write_through _ _ _ _ _ _ OK Hl Hm Hs Hi Hz H) as (La & V & F & S & Z & D).
    rewrite (read_shared a k' l' i' OK Hl' Hs' Hi' Hz').
    rewrite (read_shared a' k' l' i' OK').
    - rewrite D. destruct ((l_obj l' =? l_obj l) && (l_off l' + i' =? l_off l + i)); reflexivity.
    - rewrite La. exact Hl'.
    - exact Hs'.
    - exact Hi'.
    - rewrite (proj1 (Z (l_obj l'))). exact Hz'.
  Qed.

  Lemma copy_private a k l i b r a' : api_ok t a -> a_live a k = Some l -> l_mut l = true -> l_shared l = false ->
    step t (CSet k i b) a = (r, a') ->
    a_live a' = a_live a /\ w_obj (a_w a') = w_obj (a_w a) /\
    (forall k' i', k' <> k -> read_at t a' k' i' = read_at t a k' i') /\
    (r = Ret SNone -> forall i', 0 <= i' < m_len (l_map l) -> l_off l + i' < o_size (w_obj (a_w a) (l_obj l)) ->
       read_at t a' k i' = if i' =? i then Ret (SByte b) else read_at t a k i').
  Proof.
    intros OK Hl Hm Hs H. destruct (step_set _ _ _ _ _ _ _ Hl Hm H) as (Ea & r1 & E & R & _).
    pose proof (ok_live _ _ OK k l Hl) as B. rewrite Hs in B.
    assert (La : a_live a' = a_live a) by (rewrite Ea; reflexivity).
    assert (OK' : api_ok t a').
    { pose proof (step_ok t Ht (CSet k i b) a OK I) as X. rewrite H in X. exact X. }
    assert (Ob : w_obj (a_w a') = w_obj (a_w a)).
    { unfold map_set in E. destruct ((0 <=? i) && (i <? m_len (l_map l))) eqn:Bi; [|injection E as _ <-; reflexivity].
      apply andb_prop in Bi as [B1 B2]. apply Z.leb_le in B1. apply Z.ltb_lt in B2.
      destruct (byte_page t Ht _ _ _ _ _ _ B i ltac:(lia)) as (Ep & _). rewrite Ep in E.
      destruct (byte_entry t Ht _ _ _ _ _ _ B i ltac:(lia)) as (e0 & E0 & _ & _ & _ & Es & _).
      apply store_effect in E as [[_ ->]|(_ & _ & _ & _ & e & Ev & _ & _ & [(X & _)|(_ & X & _)])]; [reflexivity| |exact X]. congruence. }
    destruct (set_within t Ht _ _ _ _ _ _ _ _ _ _ B E) as (Wi & _ & Pn).
    split; [exact La|]. split; [exact Ob|]. split.
    - intros k' i' Nk. destruct (a_live a k') as [l'|] eqn:Hl'.
      2:{ unfold read_at. cbn [step]. unfold with_map. rewrite La, Hl'. reflexivity. }
      apply (read_same t a a' k' l' l' i'); try assumption; try reflexivity; try (rewrite La; exact Hl').
      + intros Hi'. rewrite (wi_out _ _ _ _ Wi); [apply same_page_refl|].
        destruct (byte_page t Ht _ _ _ _ _ _ (ok_live _ _ OK k' l' Hl') i' Hi') as (Ep & Ow & _). rewrite Ep.
        intros Ow'. exact (ok_apart _ _ OK _ _ _ _ _ Hl' Hl Nk Ow Ow').
      + rewrite Ob. auto.
    - intros -> i' Hi' Hz'. destruct R as [R _]. specialize (R eq_refl). subst r1.
      assert (Hi : 0 <= i < m_len (l_map l)).
      { destruct (Z_lt_le_dec i 0), (Z_lt_le_dec i (m_len (l_map l))); try lia; (assert (X : Ret tt = Panic) by (apply Pn; lia); discriminate X). }
      destruct (byte_page t Ht _ _ _ _ _ _ B i Hi) as (Ep & Ow & I1 & I2).
      assert (Es : OsModel.store (E:=error) t (m_ptr (l_map l) + i) b (a_w a) = (Ret tt, a_w a')).
      { unfold map_set in E. rewrite (proj2 (Z.leb_le 0 i)), (proj2 (Z.ltb_lt i (m_len (l_map l)))) in E by lia. cbn [andb] in E. rewrite Ep in E. exact E. }
      destruct (byte_entry t Ht _ _ _ _ _ _ B i Hi) as (e & Ev & Eo & Ei & El & Esh & Em & Er & Ec).
      unfold OsModel.store in Es. rewrite Ev in Es. destruct (p_w e) eqn:Ew; cbn [negb] in Es; [|discriminate Es].
      rewrite Eo in Es. destruct (o_size (w_obj (a_w a) (l_obj l)) <=? P * p_idx e); [discriminate Es|].
      rewrite Esh in Es. injection Es as Es.
      pose proof (ok_live _ _ OK' k l ltac:(rewrite La; exact Hl)) as B'. rewrite Hs in B'.
      assert (Hz2 : l_off l + i' < o_size (w_obj (a_w a') (l_obj l))) by (rewrite Ob; exact Hz').
      rewrite (read_at_live t a' k l i') by (rewrite La; exact Hl).
      rewrite (get_spec t Ht _ _ _ _ _ _ B' i' Hi' Hz2).
      rewrite (read_at_live t a k l i' Hl), (get_spec t Ht _ _ _ _ _ _ B i' Hi' Hz'). cbn [fst].
      unfold shown. rewrite Ob. rewrite <- Es. cbn [w_vm set_vm]. unfold put.
      destruct (byte_entry t Ht _ _ _ _ _ _ B i' Hi') as (e2 & Ev2 & Eo2 & Ei2 & _).
      pose proof (page_div t Ht (m_ptr (l_map l) + i)) as [Q1 Q2]. pose proof (page_div t Ht (m_ptr (l_map l) + i')) as [Q3 Q4].
      destruct (Z.eqb_spec ((m_ptr (l_map l) + i') / P) ((m_ptr (l_map l) + i) / P)) as [Eq|Ne].
      + cbn [p_copy set_copy]. rewrite Eq in Ev2. rewrite Ev in Ev2. injection Ev2 as <-. rewrite Eq, Ev. unfold upd.
        destruct (Z.eqb_spec i' i) as [->|Ni].
        * rewrite Z.eqb_refl. reflexivity.
        * destruct (Z.eqb_spec ((m_ptr (l_map l) + i') mod P) ((m_ptr (l_map l) + i) mod P)) as [Em2|Nm]; [exfalso; lia|].
          unfold page_byte. rewrite Eo, Ei2. destruct (p_copy e); reflexivity.
      + destruct (Z.eqb_spec i' i) as [->|Ni]; [contradiction|]. reflexivity.
  Qed.

  (** Any sequence of stores through one private map. *)
  Fixpoint stores (k : Z) (l : list (Z * byte)) : list call :=
    match l with [] => [] | (i, b) :: l => CSet k i b :: stores k l end.
  Lemma copy_history k l s a : api_ok t a -> a_live a k = Some l -> l_mut l = true -> l_shared l = false ->
    let a' := run t (stores k s) a in
    api_ok t a' /\ a_live a' = a_live a /\ w_obj (a_w a') = w_obj (a_w a) /\
    (forall k' i', k' <> k -> read_at t a' k' i' = read_at t a k' i').
  Proof.
    cbv zeta. revert a. induction s as [|[i b] s IH]; intros a OK Hl Hm Hs; cbn [stores run].
    - auto.
    - destruct (step t (CSet k i b) a) as [r a1] eqn:E.
      pose proof (step_ok t Ht (CSet k i b) a OK I) as OK1. rewrite E in OK1. cbn [snd] in *.
      destruct (copy_private _ _ _ _ _ _ _ OK Hl Hm Hs E) as (La & Ob & Rd & _).
      destruct (IH a1 OK1) as (OK2 & La2 & Ob2 & Rd2); try assumption; [rewrite La; exact Hl|].
      split; [exact OK2|]. split; [congruence|]. split; [congruence|].
      intros k' i' Nk. rewrite Rd2, Rd by exact Nk. reflexivity.
  Qed.
End Claims.
