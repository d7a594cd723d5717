(** What the program sees of the acts of other processes. *)
From Coq Require Import Lia.
From Verif Require Import Base ErrorModel SizeModel SizeProofs OsModel MapModel MapSpec OsProofs MapProofs MapCreate MapOps OthersModel ApiModel ApiSpec
  OthersProofs ApiProofs MapClaims MapClaims2 RingMapModel RingMapSpec ProcFrame.

(** Files an act reaches by a name. *)
Definition reaches (w : world) (e : other) (o : Z) : Prop :=
  match e with
  | OGrow path _ | OCut path _ | OWrite path _ _ _ => w_fs w path = Some o
  | _ => False
  end.

Section Seen.
  Variable t : target.
  Hypothesis Ht : posix_target t.
  Notation P := (t_page t).

  (** Every read of a map, in any state. *)
  Lemma read_exact a k l i : api_ok t a -> a_live a k = Some l -> 0 <= i < m_len (l_map l) ->
    read_at t a k i = if o_size (w_obj (a_w a) (l_obj l)) <=? P * ((l_off l + i) / P) then Fault
                      else Ret (SByte (shown t (a_w a) (l_map l) (l_obj l) (l_off l) i)).
  Proof.
    intros OK Hl Hi. pose proof (ok_live _ _ OK k l Hl) as B. rewrite (read_at_live t a k l i Hl).
    destruct (byte_page t Ht _ _ _ _ _ _ B i Hi) as (Ep & Ow & I1 & I2). destruct (bk_pages _ _ _ _ _ _ _ B _ Ow) as (e & Ev & Eo & Ei & Es & Em & Er & Ec).
    unfold map_get. rewrite (proj2 (Z.leb_le 0 i)), (proj2 (Z.ltb_lt i (m_len (l_map l)))) by lia. cbn [andb fst].
    rewrite Ep. unfold load, shown. rewrite Ev, Er, Eo, Ei, I1. cbn [negb].
    destruct (_ <=? _); [reflexivity|]. unfold page_byte. rewrite Eo, Ei, I1, I2. destruct (p_copy e); [reflexivity|].
    pose proof (page_div t Ht (l_off l + i)) as [D _]. do 3 f_equal. lia.
  Qed.
  Lemma read_outside a k i : (forall l, a_live a k = Some l -> ~ 0 <= i < m_len (l_map l)) -> forall w', read_at t (set_w a w') k i = read_at t a k i.
  Proof.
    intros N w'. destruct (a_live a k) as [l|] eqn:Hl.
    - rewrite (read_at_live t a k l i Hl), (read_at_live t (set_w a w') k l i Hl), !get_outside by (apply N; reflexivity). reflexivity.
    - unfold read_at. cbn [step]. unfold with_map. cbn [a_live set_w]. rewrite Hl. reflexivity.
  Qed.

  Definition after (e : other) (a : api) : api := set_w a (others t e (a_w a)).
  Lemma after_step e a : step t (COther e) a = (Ret SNone, after e a).
  Proof. reflexivity. Qed.
  Lemma after_ok e a : api_ok t a -> other_ok e -> api_ok t (after e a).
  Proof. intros OK He. exact (step_ok t Ht (COther e) a OK He). Qed.

  (** Entries change only where copies of pages behind a new end go. *)
  Lemma others_vm e w p x : w_vm w p = Some x -> exists x', w_vm (others t e w) p = Some x' /\ same_place x x' /\
    (p_copy x' = p_copy x \/ (p_copy x' = None /\ p_shared x = false /\ exists path sz, e = OCut path sz /\ w_fs w path = Some (p_obj x) /\ sz <= P * p_idx x)
     \/ (exists path sz, e = OGrow path sz /\ p_copy x' = None /\ p_shared x = false /\ w_fs w path = Some (p_obj x) /\ o_size (w_obj w (p_obj x)) < sz /\ sz <= P * p_idx x)).
  Proof.
    intros Hx.
    assert (Id : forall w', w_vm w' p = w_vm w p -> exists x', w_vm w' p = Some x' /\ same_place x x' /\ p_copy x' = p_copy x).
    { intros w' E. exists x. rewrite E. split; [exact Hx|]. split; [apply same_place_refl|reflexivity]. }
    assert (Id' : forall w', w_vm w' p = w_vm w p -> exists x', w_vm w' p = Some x' /\ same_place x x' /\
      (p_copy x' = p_copy x \/ (p_copy x' = None /\ p_shared x = false /\ exists path sz, e = OCut path sz /\ w_fs w path = Some (p_obj x) /\ sz <= P * p_idx x)
     \/ (exists path sz, e = OGrow path sz /\ p_copy x' = None /\ p_shared x = false /\ w_fs w path = Some (p_obj x) /\ o_size (w_obj w (p_obj x)) < sz /\ sz <= P * p_idx x))).
    { intros w' E. destruct (Id w' E) as (x' & H1 & H2 & H3). exists x'. auto. }
    destruct e as [path|path|from to|path sz|path sz|path off d sync]; cbn [others]; unfold at_name.
    - destruct (w_fs w path); apply Id'; reflexivity.
    - apply Id'; reflexivity.
    - destruct (w_fs w from); apply Id'; reflexivity.
    - destruct (w_fs w path) as [o|] eqn:Ef; [|apply Id'; reflexivity]. destruct (Z.ltb_spec (o_size (w_obj w o)) sz); [|apply Id'; reflexivity].
      destruct (resize_obj_spec t o sz w) as (V & _). specialize (V p). rewrite Hx in V. destruct (w_vm (resize_obj t o sz w) p) as [x'|]; [|contradiction V].
      destruct V as [S [C|(C & Eo & Sh & Le)]]; exists x'; (split; [reflexivity|]); (split; [exact S|]); [auto|]. right. right. exists path, sz. subst o. auto 10.
    - destruct (w_fs w path) as [o|] eqn:Ef; [|apply Id'; reflexivity]. destruct (Z.ltb_spec sz (o_size (w_obj w o))); [|apply Id'; reflexivity].
      destruct (resize_obj_spec t o sz w) as (V & _). specialize (V p). rewrite Hx in V. destruct (w_vm (resize_obj t o sz w) p) as [x'|]; [|contradiction V].
      destruct V as [S [C|(C & Eo & Sh & Le)]]; exists x'; (split; [reflexivity|]); (split; [exact S|]); [auto|]. right. left. split; [exact C|]. split; [exact Sh|].
      exists path, sz. subst o. auto.
    - destruct (w_fs w path); apply Id'; reflexivity.
  Qed.

  Lemma others_obj e w o : o < w_next w -> ~ reaches w e o -> w_obj (others t e w) o = w_obj w o.
  Proof.
    intros Ho N. destruct e as [path|path|from to|path sz|path sz|path off d sync]; cbn [others reaches] in *; unfold at_name.
    - destruct (w_fs w path); [reflexivity|]. cbn. apply put_other. lia.
    - reflexivity.
    - destruct (w_fs w from); reflexivity.
    - destruct (w_fs w path) as [o'|]; [|reflexivity]. destruct (_ <? _); [|reflexivity].
      destruct (resize_obj_spec t o' sz w) as (_ & _ & _ & _ & Ob & _). apply Ob. congruence.
    - destruct (w_fs w path) as [o'|]; [|reflexivity]. destruct (_ <? _); [|reflexivity].
      destruct (resize_obj_spec t o' sz w) as (_ & _ & _ & _ & Ob & _). apply Ob. congruence.
    - destruct (w_fs w path) as [o'|]; [|reflexivity]. cbn. apply put_other. congruence.
  Qed.
  Lemma live_obj a k l : api_ok t a -> a_live a k = Some l -> l_obj l < w_next (a_w a).
  Proof.
    intros OK Hl. pose proof (ok_live _ _ OK k l Hl) as B. pose proof (page_count_pos t Ht _ _ _ _ _ _ B).
    destruct (bk_pages _ _ _ _ _ _ _ B (first_page t (l_map l))) as (e & Ev & Eo & _); [unfold own_page; lia|]. rewrite <- Eo. exact (wf_vm _ (ok_wf _ _ OK) _ _ Ev).
  Qed.

  (** What the map shows after an act that leaves the copy of the page. *)
  Lemma shown_after e a l k i : api_ok t a -> a_live a k = Some l -> 0 <= i < m_len (l_map l) -> other_ok e ->
    exists x x', w_vm (a_w a) ((m_ptr (l_map l) + i) / P) = Some x /\ w_vm (others t e (a_w a)) ((m_ptr (l_map l) + i) / P) = Some x' /\
      p_obj x = l_obj l /\ p_idx x = (l_off l + i) / P /\ p_shared x = l_shared l /\ (l_shared l = true -> p_copy x = None /\ p_copy x' = None) /\
      (o_size (w_obj (a_w a) (l_obj l)) > P * ((l_off l + i) / P) ->
       (forall path sz, e = OCut path sz -> w_fs (a_w a) path = Some (l_obj l) -> P * ((l_off l + i) / P) < sz) -> p_copy x' = p_copy x).
  Proof.
    intros OK Hl Hi He. pose proof (ok_live _ _ OK k l Hl) as B.
    destruct (byte_page t Ht _ _ _ _ _ _ B i Hi) as (Ep & Ow & I1 & I2). destruct (bk_pages _ _ _ _ _ _ _ B _ Ow) as (x & Ev & Eo & Ei & Es & Em & Er & Ec).
    destruct (others_vm e (a_w a) _ x Ev) as (x' & Ev' & SP & C). exists x, x'. rewrite Ei, I1.
    split; [exact Ev|]. split; [exact Ev'|]. split; [exact Eo|]. split; [reflexivity|]. split; [exact Es|]. split.
    - intros Sh. split; [exact (Ec Sh)|]. rewrite Ec in C by exact Sh. destruct C as [C|[C|C]]; [exact C|apply C|destruct C as (? & ? & C); apply C].
    - intros Sz Nc. destruct C as [C|[(_ & _ & path & sz & -> & Ef & Le)|(path & sz & -> & _ & _ & Ef & Lt & Le)]]; [exact C| |]; rewrite Eo, ?Ei, ?I1 in *.
      + specialize (Nc path sz eq_refl Ef). lia.
      + lia.
  Qed.

  Lemma elsewhere e a k i : api_ok t a -> other_ok e -> (forall l, a_live a k = Some l -> ~ reaches (a_w a) e (l_obj l)) ->
    read_at t (after e a) k i = read_at t a k i.
  Proof.
    intros OK He N. destruct (a_live a k) as [l|] eqn:Hl.
    2:{ apply read_outside. congruence. }
    destruct (Z_lt_le_dec i 0) as [|Hi1]; [apply read_outside; intros l' Hl'; assert (l' = l) by congruence; subst; lia|].
    destruct (Z_lt_le_dec i (m_len (l_map l))) as [Hi2|]; [|apply read_outside; intros l' Hl'; assert (l' = l) by congruence; subst; lia].
    specialize (N l eq_refl).
    rewrite (read_exact a k l i OK Hl) by lia. rewrite (read_exact (after e a) k l i (after_ok e a OK He) Hl) by lia. cbn [a_w after set_w].
    rewrite (others_obj e _ _ (live_obj a k l OK Hl) N). destruct (Z.leb_spec (o_size (w_obj (a_w a) (l_obj l))) (P * ((l_off l + i) / P))) as [|Gt]; [reflexivity|].
    destruct (shown_after e a l k i OK Hl ltac:(lia) He) as (x & x' & E & E' & _ & _ & _ & _ & C).
    unfold shown. rewrite E, E', C, (others_obj e _ _ (live_obj a k l OK Hl) N); [reflexivity|lia|]. intros path sz -> Ef. destruct (N Ef).
  Qed.

  Lemma written path off d sync a k l i : api_ok t a -> 0 <= off -> a_live a k = Some l -> l_shared l = true ->
    0 <= i < m_len (l_map l) -> l_off l + i < o_size (w_obj (a_w a) (l_obj l)) ->
    w_fs (a_w a) path = Some (l_obj l) ->
    read_at t (after (OWrite path off d sync) a) k i =
      if (off <=? l_off l + i) && (l_off l + i <? off + zlen d) then Ret (SByte (nth (Z.to_nat (l_off l + i - off)) d 0)) else read_at t a k i.
  Proof.
    intros OK He Hl Sh Hi Sz Ef. change (other_ok (OWrite path off d sync)) in He. set (e := OWrite path off d sync) in *.
    
    rewrite (read_exact a k l i OK Hl) by lia. rewrite (read_exact (after e a) k l i (after_ok e a OK He) Hl) by lia. cbn [a_w after set_w].
    assert (Ob : w_obj (others t e (a_w a)) (l_obj l) = {| o_size := o_size (w_obj (a_w a) (l_obj l));
      o_data := splice (o_data (w_obj (a_w a) (l_obj l))) off d (o_size (w_obj (a_w a) (l_obj l)));
      o_disk := o_disk (w_obj (others t e (a_w a)) (l_obj l)) |}).
    { unfold e. cbn [others]. unfold at_name. rewrite Ef. cbn. rewrite put_same. reflexivity. }
    rewrite Ob. cbn [o_size]. pose proof (page_div t Ht (l_off l + i)) as [D1 D2].
    destruct (Z.leb_spec (o_size (w_obj (a_w a) (l_obj l))) (P * ((l_off l + i) / P))) as [|Gt]; [lia|].
    destruct (shown_after e a l k i OK Hl ltac:(lia) He) as (x & x' & E & E' & _ & _ & _ & C & _). destruct (C Sh) as [C1 C2].
    unfold shown. rewrite E, E', C1, C2, Ob. cbn [o_data]. unfold splice. rewrite (proj2 (Z.ltb_lt _ _) Sz), andb_true_r.
    destruct (_ && _); reflexivity.
  Qed.

  Lemma cut path sz a k l i : api_ok t a -> a_live a k = Some l -> l_shared l = true ->
    0 <= i < m_len (l_map l) -> 0 <= sz < o_size (w_obj (a_w a) (l_obj l)) -> w_fs (a_w a) path = Some (l_obj l) ->
    read_at t (after (OCut path sz) a) k i =
      if sz <=? P * ((l_off l + i) / P) then Fault else if l_off l + i <? sz then read_at t a k i else Ret (SByte 0).
  Proof.
    intros OK Hl Sh Hi Sz Ef. set (e := OCut path sz).
    assert (He : other_ok e). { pose proof (wf_size _ (ok_wf _ _ OK) (l_obj l)). cbn. lia. }
    rewrite (read_exact a k l i OK Hl) by lia. rewrite (read_exact (after e a) k l i (after_ok e a OK He) Hl) by lia. cbn [a_w after set_w].
    destruct (shown_after e a l k i OK Hl ltac:(lia) He) as (x & x' & E & E' & _ & _ & _ & C & _). destruct (C Sh) as [C1 C2].
    unfold shown. rewrite E, E', C1, C2.
    assert (R : others t e (a_w a) = resize_obj t (l_obj l) sz (a_w a)).
    { unfold e. cbn [others]. unfold at_name. rewrite Ef. rewrite (proj2 (Z.ltb_lt _ _)) by lia. reflexivity. }
    rewrite R. destruct (resize_obj_spec t (l_obj l) sz (a_w a)) as (_ & _ & _ & _ & _ & S & D & _). cbv zeta in *. rewrite S, D.
    destruct (Z.leb_spec sz (P * ((l_off l + i) / P))); [reflexivity|].
    destruct (Z.leb_spec (o_size (w_obj (a_w a) (l_obj l))) (P * ((l_off l + i) / P))); [lia|].
    rewrite Z.min_r by lia. destruct (_ <? _); reflexivity.
  Qed.

  (** Pages of a private map that the program has stored to. *)
  Definition own_copy (a : api) (l : live) (i : Z) : Prop :=
    exists x, w_vm (a_w a) ((m_ptr (l_map l) + i) / P) = Some x /\ p_copy x <> None.
  Definition cuts (e : other) : bool := match e with OCut _ _ => true | _ => false end.

  Lemma others_size e w o : o < w_next w -> cuts e = false -> o_size (w_obj w o) <= o_size (w_obj (others t e w) o).
  Proof.
    intros Ho N. destruct e as [path|path|from to|path sz|path sz|path off d sync]; cbn [others] in *; unfold at_name; try discriminate N; try apply Z.le_refl.
    - destruct (w_fs w path); [lia|]. cbn. rewrite put_other by lia. lia.
    - destruct (w_fs w from); cbn; lia.
    - destruct (w_fs w path) as [o'|]; [|lia]. destruct (Z.ltb_spec (o_size (w_obj w o')) sz); [|lia].
      destruct (resize_obj_spec t o' sz w) as (_ & _ & _ & _ & Ob & S & _). cbv zeta in *.
      destruct (Z.eq_dec o o') as [->|No]; [lia|rewrite (Ob _ No); lia].
    - destruct (w_fs w path) as [o'|]; [|lia]. cbn. unfold put. destruct (Z.eqb_spec o o') as [->|]; cbn; lia.
  Qed.

  Lemma copy_after e a k l i : api_ok t a -> a_live a k = Some l -> 0 <= i < m_len (l_map l) -> other_ok e -> cuts e = false ->
    own_copy a l i -> P * ((l_off l + i) / P) < o_size (w_obj (a_w a) (l_obj l)) ->
    read_at t (after e a) k i = read_at t a k i /\ own_copy (after e a) l i /\
    P * ((l_off l + i) / P) < o_size (w_obj (a_w (after e a)) (l_obj l)).
  Proof.
    intros OK Hl Hi He Nc (x0 & Ex & Cx) Sz.
    pose proof (others_size e (a_w a) (l_obj l) (live_obj a k l OK Hl) Nc) as Gs.
    destruct (shown_after e a l k i OK Hl Hi He) as (x & x' & E & E' & _ & _ & _ & _ & C).
    specialize (C ltac:(lia)). assert (C' : p_copy x' = p_copy x) by (apply C; intros path sz -> _; discriminate Nc). clear C.
    assert (x = x0) by congruence. subst x0.
    split; [|split; [exists x'; cbn [a_w after set_w]; rewrite C'; auto|cbn [a_w after set_w]; lia]].
    rewrite (read_exact a k l i OK Hl) by lia. rewrite (read_exact (after e a) k l i (after_ok e a OK He) Hl) by lia. cbn [a_w after set_w].
    destruct (Z.leb_spec (o_size (w_obj (a_w a) (l_obj l))) (P * ((l_off l + i) / P))); [lia|].
    destruct (Z.leb_spec (o_size (w_obj (others t e (a_w a)) (l_obj l))) (P * ((l_off l + i) / P))); [lia|].
    unfold shown. rewrite E, E', C'. destruct (p_copy x); [reflexivity|]. destruct (Cx eq_refl).
  Qed.
  Fixpoint afters (es : list other) (a : api) : api := match es with [] => a | e :: es => afters es (after e a) end.
  Lemma copies_after es : forall a k l i, api_ok t a -> a_live a k = Some l -> 0 <= i < m_len (l_map l) -> Forall other_ok es -> Forall (fun e => cuts e = false) es ->
    own_copy a l i -> P * ((l_off l + i) / P) < o_size (w_obj (a_w a) (l_obj l)) -> read_at t (afters es a) k i = read_at t a k i.
  Proof.
    induction es as [|e es IH]; intros a k l i OK Hl Hi Fo Fc Oc Sz; [reflexivity|]. inversion Fo; inversion Fc; subst. cbn [afters].
    destruct (copy_after e a k l i OK Hl Hi) as (R1 & R2 & R3); try assumption.
    rewrite (IH (after e a) k l i); try assumption. apply after_ok; assumption.
  Qed.
  Lemma stored_copy a k l i b a' i' : api_ok t a -> a_live a k = Some l -> l_mut l = true -> l_shared l = false ->
    step t (CSet k i b) a = (Ret SNone, a') -> 0 <= i' < m_len (l_map l) -> (l_off l + i') / P = (l_off l + i) / P ->
    a_live a' k = Some l /\ own_copy a' l i' /\ P * ((l_off l + i') / P) < o_size (w_obj (a_w a') (l_obj l)).
  Proof.
    intros OK Hl Hm Hs H Hi' Ep'. destruct (step_set _ _ _ _ _ _ _ _ Hl Hm H) as (Ea & r1 & E & R & _).
    pose proof (ok_live _ _ OK k l Hl) as B. rewrite Hs in B.
    destruct (copy_private t Ht a k l i b _ a' OK Hl Hm Hs H) as (La & Ob & _).
    split; [rewrite La; exact Hl|].
    destruct R as [R _]. specialize (R eq_refl). subst r1. destruct (set_within t Ht _ _ _ _ _ _ _ _ _ _ B E) as (_ & _ & Pn).
    assert (Hi : 0 <= i < m_len (l_map l)).
    { destruct (Z_lt_le_dec i 0), (Z_lt_le_dec i (m_len (l_map l))); try lia; (assert (X : Ret tt = Panic) by (apply Pn; lia); discriminate X). }
    destruct (byte_page t Ht _ _ _ _ _ _ B i Hi) as (Ep & Ow & I1 & I2). destruct (byte_page t Ht _ _ _ _ _ _ B i' Hi') as (_ & _ & I1' & _).
    destruct (bk_pages _ _ _ _ _ _ _ B _ Ow) as (e & Ev & Eo & Ei & Es & _).
    unfold map_set in E. rewrite (proj2 (Z.leb_le 0 i)), (proj2 (Z.ltb_lt i (m_len (l_map l)))) in E by lia. cbn [andb] in E. rewrite Ep in E.
    unfold OsModel.store in E. rewrite Ev in E. destruct (p_w e); cbn [negb] in E; [|discriminate E].
    rewrite Eo, Ei, I1 in E. destruct (Z.leb_spec (o_size (w_obj (a_w a) (l_obj l))) (P * ((l_off l + i) / P))); [discriminate E|].
    rewrite Es in E. injection E as E. split.
    - assert (Eq : (m_ptr (l_map l) + i') / P = (m_ptr (l_map l) + i) / P) by lia.
      unfold own_copy. rewrite Eq, <- E. cbn. rewrite put_same. eexists. split; [reflexivity|]. discriminate.
    - rewrite Ob, Ep'. lia.
  Qed.
  Lemma copy_kept a k l i b a' es i' : api_ok t a -> a_live a k = Some l -> l_mut l = true -> l_shared l = false ->
    step t (CSet k i b) a = (Ret SNone, a') -> 0 <= i' < m_len (l_map l) -> (l_off l + i') / P = (l_off l + i) / P ->
    Forall other_ok es -> Forall (fun e => cuts e = false) es -> read_at t (afters es a') k i' = read_at t a' k i'.
  Proof.
    intros OK Hl Hm Hs H Hi' Ep' Fo Fc. destruct (stored_copy _ _ _ _ _ _ _ OK Hl Hm Hs H Hi' Ep') as (L' & Oc & Sz).
    apply (copies_after es a' k l i'); try assumption. pose proof (step_ok t Ht (CSet k i b) a OK Logic.I) as X. rewrite H in X. exact X.
  Qed.
End Seen.
