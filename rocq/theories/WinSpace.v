(** What calls do to the address space as a whole on Windows. *)
From Coq Require Import Lia.
From Verif Require Import Base Spec ErrorModel SizeModel OsModel MapModel MapSpec RingMapModel RingMapSpec SizeProofs OsProofs
  MapProofs MapCreate MapOps MirrorProofs RingMapClaims WinModel WinSpec WinProofs WinClaims WinCalls WinMapModel WinMapSpec.

(** What every call keeps of a page ([kept], MapOps.v). *)
Lemma kept_refl e : kept e e.
Proof. unfold kept. repeat split; auto. Qed.
Lemma kept_trans e1 e2 e3 : kept e1 e2 -> kept e2 e3 -> kept e1 e3.
Proof.
  intros (A1 & A2 & A3 & A4 & A5 & A6 & A7) (B1 & B2 & B3 & B4 & B5 & B6 & B7). unfold kept. repeat split; try congruence; auto.
  intros H1 H2. apply B7; [congruence|auto].
Qed.

(** From [s] to [s']: the views based in [X] may go, private copies of the
    pages in [T] and the contents of the objects in [Y] may change; every
    other page of a view, view and object stays but for files. *)
Record evolves (t : target) (X T Y : Z -> Prop) (s s' : win) : Prop := {
  ev_next : w_next (n_w s) <= w_next (n_w s');
  ev_page : forall a n p e, n_view s a = Some n -> in_view t a n p -> w_vm (n_w s) p = Some e ->
     (exists b m, X b /\ n_view s b = Some m /\ in_view t b m p) \/
     exists e', w_vm (n_w s') p = Some e' /\ kept e e' /\
       (T p \/ p_copy e' = p_copy e \/ (named (n_w s) (p_obj e) /\ p_copy e' = None));
  ev_view : forall a n, n_view s a = Some n -> X a \/ n_view s' a = Some n;
  ev_new : forall a n, n_view s' a = Some n -> n_view s a = Some n \/ n_view s a = None;
  ev_size : forall o, o < w_next (n_w s) -> ~ named (n_w s) o -> o_size (w_obj (n_w s') o) = o_size (w_obj (n_w s) o);
  ev_obj : forall o, o < w_next (n_w s) -> ~ named (n_w s) o ->
     Y o \/ forall i, o_data (w_obj (n_w s') o) i = o_data (w_obj (n_w s) o) i;
  ev_named : forall o, named (n_w s') o -> named (n_w s) o \/ w_next (n_w s) <= o;
  ev_wf : wf (n_w s) -> wf (n_w s');
  ev_space : space_ok t s -> space_ok t s'
}.
Definition none (x : Z) : Prop := False.
Notation keeps t s s' := (evolves t none none none s s').

Lemma named_wf w o : wf w -> named w o -> o < w_next w.
Proof. intros W [(fd & f & H & <-)|(q & H)]; [exact (proj2 (wf_fd _ W _ _ H))|exact (wf_fs _ W _ _ H)]. Qed.
Lemma named_same w w' : w_fd w' = w_fd w -> w_fs w' = w_fs w -> forall o, named w' o <-> named w o.
Proof. intros A B o. unfold named. rewrite A, B. reflexivity. Qed.

Section Space.
  Variable t : target.
  Hypothesis Ht : good_target t.
  Notation P := (t_page t).
  Notation G := (t_alloc t).
  Let HP : 0 < P.
  Proof. exact (pow2_pos _ (proj1 (proj2 Ht))). Qed.
  Let HG : 0 < G.
  Proof. exact (pow2_pos _ (proj1 (proj2 (proj2 Ht)))). Qed.

  Lemma ev_trans_gen (X1 X2 T Y : Z -> Prop) s1 s2 s3 : wf (n_w s1) ->
    (forall a n, X2 a -> n_view s2 a = Some n -> n_view s1 a = Some n) ->
    (forall a n, n_view s3 a = Some n -> n_view s1 a = Some n \/ n_view s1 a = None) ->
    evolves t X1 T Y s1 s2 -> evolves t X2 T Y s2 s3 -> evolves t (fun a => X1 a \/ X2 a) T Y s1 s3.
  Proof.
    intros W HX HX1 [N1 P1 V1 W1 Z1 O1 A1 F1 S1] [N2 P2 V2 W2 Z2 O2 A2 F2 S2].
    assert (NN : forall o, o < w_next (n_w s1) -> named (n_w s2) o -> named (n_w s1) o).
    { intros o Ho X. apply A1 in X as [X|X]; [auto|lia]. }
    split.
    - lia.
    - intros a n p e Va Ia He. destruct (P1 a n p e Va Ia He) as [(b & m & Xb & H2)|(e1 & E1 & K1 & C1)]; [left; exists b, m; tauto|].
      destruct (V1 a n Va) as [Xa|Va2]; [left; exists a, n; auto|].
      destruct (P2 a n p e1 Va2 Ia E1) as [(b & m & H1 & H2 & H3)|(e2 & E2 & K2 & C2)].
      { left. exists b, m. split; [auto|]. split; [exact (HX _ _ H1 H2)|exact H3]. }
      right. exists e2. split; [exact E2|]. split; [eapply kept_trans; eassumption|].
      destruct C1 as [C1|C1]; [auto|]. destruct C2 as [C2|C2]; [auto|]. right.
      assert (NE : named (n_w s2) (p_obj e1) -> named (n_w s1) (p_obj e)).
      { destruct K1 as [-> _]. apply NN. exact (wf_vm _ W _ _ He). }
      destruct C1 as [C1|(C1 & C1')].
      + destruct C2 as [C2|(C2 & C2')]; [left; congruence|right; auto].
      + right. split; [exact C1|]. destruct C2 as [C2|(C2 & C2')]; congruence.
    - intros a n H. destruct (V1 a n H) as [H1|H1]; [auto|]. destruct (V2 a n H1) as [H2|H2]; auto.
    - exact HX1.
    - intros o Ho Hn. rewrite Z2, Z1; auto. lia.
    - intros o Ho Hn. destruct (O1 o Ho Hn) as [H|H]; [auto|].
      destruct (O2 o) as [H2|H2]; [lia|auto|auto|right; intros i; rewrite H2; apply H].
    - intros o H. apply A2 in H as [H|H]; [auto|right; lia].
    - auto.
    - auto.
  Qed.
  Lemma ev_weaken (X T Y X' T' Y' : Z -> Prop) s s' : (forall a, X a -> X' a) -> (forall a, T a -> T' a) -> (forall a, Y a -> Y' a) ->
    evolves t X T Y s s' -> evolves t X' T' Y' s s'.
  Proof.
    intros HX HT HY [N1 P1 V1 W1 Z1 O1 A1 F1 S1]. split; auto.
    - intros a n p e Va Ia He. destruct (P1 a n p e Va Ia He) as [(b & m & H & R)|(e' & E & K & C)]; [left; exists b, m; auto|right]. exists e'.
      split; [exact E|]. split; [exact K|]. destruct C as [C|C]; auto.
    - intros a n H. destruct (V1 a n H); auto.
    - intros o Ho Hn. destruct (O1 o Ho Hn); auto.
  Qed.
  Lemma ev_trans (T Y : Z -> Prop) s1 s2 s3 : wf (n_w s1) -> evolves t none T Y s1 s2 -> evolves t none T Y s2 s3 ->
    evolves t none T Y s1 s3.
  Proof.
    intros W E1 E2. refine (ev_weaken _ _ _ _ _ _ _ _ _ _ _ (ev_trans_gen _ _ _ _ _ _ _ W _ _ E1 E2)); auto.
    - intros a [[]|[]].
    - intros a n [].
    - intros a n H. destruct (ev_new _ _ _ _ _ _ E2 a n H) as [H2|H2]; [exact (ev_new _ _ _ _ _ _ E1 a n H2)|].
      destruct (n_view s1 a) as [k|] eqn:E; [|auto]. destruct (ev_view _ _ _ _ _ _ E1 a k E) as [[]|H1]. congruence.
  Qed.

  (** Pages stay where they are, views too. *)
  Lemma ev_steady (T Y : Z -> Prop) s s' : (forall p e, w_vm (n_w s) p = Some e -> exists e', w_vm (n_w s') p = Some e' /\ kept e e' /\
        (T p \/ p_copy e' = p_copy e \/ (named (n_w s) (p_obj e) /\ p_copy e' = None))) ->
    (forall a, n_view s' a = n_view s a) -> w_next (n_w s) <= w_next (n_w s') ->
    (forall o, o < w_next (n_w s) -> ~ named (n_w s) o -> o_size (w_obj (n_w s') o) = o_size (w_obj (n_w s) o)) ->
    (forall o, o < w_next (n_w s) -> ~ named (n_w s) o -> Y o \/ forall i, o_data (w_obj (n_w s') o) i = o_data (w_obj (n_w s) o) i) ->
    (forall o, named (n_w s') o -> named (n_w s) o \/ w_next (n_w s) <= o) ->
    (wf (n_w s) -> wf (n_w s')) -> evolves t none T Y s s'.
  Proof.
    intros A B N Z O M W. split; auto.
    - intros a n H. right. rewrite B. exact H.
    - intros a n H. rewrite B in H. auto.
    - intros [W1 W2 W3]. split.
      + intros a n H. rewrite B in H. exact (W1 _ _ H).
      + intros a n p H I. rewrite B in H. destruct (W2 _ _ _ H I) as (e & E). destruct (A p e E) as (e' & E' & _). eauto.
      + intros a n b m p H1 H2. rewrite B in H1, H2. exact (W3 _ _ _ _ _ H1 H2).
  Qed.
  Lemma named_eq w w' : (forall fd, w_fd w' fd = w_fd w fd) -> (forall q, w_fs w' q = w_fs w q) -> forall o, named w' o -> named w o.
  Proof.
    intros F Q o [(fd & f & H & <-)|(q & H)]; [left; exists fd, f; rewrite <- F; auto|right; exists q; rewrite <- Q; auto].
  Qed.
  (** Same space, objects that existed are the same. *)
  Lemma ev_same s s' : same_space s s' -> rest s s' ->
    (forall o, w_next (n_w s) <= o -> w_obj (n_w s') o = w_obj (n_w s) o \/ 0 <= o_size (w_obj (n_w s') o) < 2 ^ 64) -> keeps t s s'.
  Proof.
    intros [A B C] [[R1 R2 R3 R4 R5] N] Z. apply ev_steady; auto.
    - intros p e He. exists e. rewrite A. split; [exact He|]. split; [apply kept_refl|auto].
    - intros o Ho _. rewrite R5 by exact Ho. reflexivity.
    - intros o Ho _. right. rewrite R5 by exact Ho. reflexivity.
    - intros o H. left. exact (named_eq _ _ R2 R3 _ H).
    - intros W. apply (wf_change _ _ W); auto.
      + intros p e' He. left. rewrite A in He. eauto.
      + intros fd f. rewrite R2. auto.
      + intros q o. rewrite R3. auto.
      + intros o. destruct (Z.lt_ge_cases o (w_next (n_w s))) as [L|L]; [rewrite R5 by exact L; auto|].
        destruct (Z o L) as [->|H]; auto.
  Qed.
  Lemma ev_wq s s' : wq s s' -> keeps t s s'.
  Proof.
    intros Q. apply ev_same; [exact (wq_space _ _ Q)|exact (wq_rest _ _ Q)|].
    intros o _. left. rewrite (q_obj _ _ (wq_w _ _ Q)). reflexivity.
  Qed.
  Lemma ev_refl s : keeps t s s.
  Proof. apply ev_same; [split; reflexivity|apply rest_refl|auto]. Qed.

  (** A file operation. *)
  Lemma ev_touched o s w1 : touched o (n_w s) w1 -> named (n_w s) o -> (wf (n_w s) -> wf w1) -> keeps t s (with_w s w1).
  Proof.
    intros [V N F S O D] M W. apply ev_steady; cbn.
    - intros p e He. specialize (V p). rewrite He in V. destruct (w_vm w1 p) as [e'|]; [|contradiction].
      destruct V as [V C]. exists e'. split; [reflexivity|]. split; [apply same_place_kept; tauto|].
      right. destruct C as [C|(C & Eo & Es)]; [auto|right]. rewrite Eo. auto.
    - reflexivity.
    - lia.
    - intros o' Ho Hn. rewrite O; [reflexivity|]. intros ->. contradiction.
    - intros o' Ho Hn. right. rewrite O; [reflexivity|]. intros ->. contradiction.
    - intros o' H. left. apply (named_same _ _ F S), H.
    - exact W.
  Qed.

  (** Page attributes change. *)
  Lemma ev_pages g s s' a len : (forall e, kept e (g e) /\ p_copy (g e) = p_copy e) ->
    other_state s s' -> pages_changed t g s s' a len -> keeps t s s'.
  Proof.
    intros HG' (A1 & A2 & A3 & A4 & A5 & A6 & A7 & A8) C.
    assert (K : forall p, match w_vm (n_w s) p with Some e => w_vm (n_w s') p = Some e \/ w_vm (n_w s') p = Some (g e)
                          | None => w_vm (n_w s') p = None end).
    { intros p. specialize (C p). destruct (_ && _).
      - destruct C as (e & -> & ->). auto.
      - rewrite C. destruct (w_vm (n_w s) p); auto. }
    apply ev_steady; auto.
    - intros p e He. specialize (K p). rewrite He in K. destruct (HG' e) as [G1 G2].
      destruct K as [K|K]; rewrite K; eexists; (split; [reflexivity|]); split; auto. apply kept_refl.
    - lia.
    - intros o _ _. rewrite A5. reflexivity.
    - intros o _ _. right. rewrite A5. reflexivity.
    - intros o H. left. exact (named_eq _ _ A6 A7 _ H).
    - intros W. apply (wf_change _ _ W); try lia.
      + intros p e' He. specialize (K p). destruct (w_vm (n_w s) p) as [e|]; [|congruence]. left. exists e. split; [reflexivity|].
        destruct (HG' e) as [(G1 & _) _]. destruct K as [K|K]; rewrite K in He; injection He as <-; auto.
      + intros fd f. rewrite A6. auto.
      + intros q o. rewrite A7. auto.
      + intros o. rewrite A5. auto.
  Qed.

  (** A flush. *)
  Lemma ev_flush s s' : memory_kept s s' -> keeps t s s'.
  Proof.
    intros ([A B C] & M1 & M2 & M3 & M4 & M5). apply ev_steady; auto.
    - intros p e He. exists e. rewrite A. split; [exact He|]. split; [apply kept_refl|auto].
    - lia.
    - intros o _ _. apply M4.
    - intros o _ _. right. apply M4.
    - intros o H. left. exact (named_eq _ _ M3 M2 _ H).
    - intros W. apply (wf_change _ _ W); try lia.
      + intros p e' He. left. rewrite A in He. eauto.
      + intros fd f. rewrite M3. auto.
      + intros q o. rewrite M2. auto.
      + intros o. left. apply M4.
  Qed.

  (** A new view. *)
  Lemma ev_added s s' pg n : one_view_added t s s' pg n -> n_view s pg = None -> 0 < n -> pg mod G = 0 -> P <= pg ->
    pg + P * n <= 2 ^ t_bits t - P ->
    (forall p, in_view t pg n p -> exists e, w_vm (n_w s') p = Some e /\ p_obj e < w_next (n_w s')) ->
    (forall fd, w_fd (n_w s') fd = w_fd (n_w s) fd) -> (forall q, w_fs (n_w s') q = w_fs (n_w s) q) ->
    w_next (n_w s) <= w_next (n_w s') -> (forall o, o < w_next (n_w s) -> w_obj (n_w s') o = w_obj (n_w s) o) ->
    (forall o, o_size (w_obj (n_w s') o) = o_size (w_obj (n_w s) o) \/ 0 <= o_size (w_obj (n_w s') o) < 2 ^ 64) ->
    keeps t s s'.
  Proof.
    intros [V1 V2 V3 V4 V5] Hv Hn Hg Hl Hh M F Q N O Z.
    assert (NM : forall o, named (n_w s') o -> named (n_w s) o).
    { intros o [(fd & f & H & <-)|(q & H)]; [left; exists fd, f; rewrite <- F; auto|right; exists q; rewrite <- Q; auto]. }
    assert (ST : forall p e, w_vm (n_w s) p = Some e -> w_vm (n_w s') p = Some e).
    { intros p e He. rewrite V3; [exact He|]. intros I. rewrite (V2 p I) in He. discriminate. }
    split.
    - exact N.
    - intros a k p e _ _ He. right. exists e. split; [exact (ST p e He)|]. split; [apply kept_refl|auto].
    - intros a k H. right. destruct (Z.eq_dec a pg) as [->|Na]; [congruence|]. rewrite V4 by exact Na. exact H.
    - intros a k H. destruct (Z.eq_dec a pg) as [->|Na]; [auto|]. rewrite V4 in H by exact Na. auto.
    - intros o Ho _. rewrite (O o Ho). reflexivity.
    - intros o Ho _. right. rewrite (O o Ho). reflexivity.
    - auto.
    - intros W. apply (wf_change _ _ W); auto.
      + intros p e' He. destruct (in_pages_cases (pg / P) n p) as [[_ I]|[_ I]].
        * destruct (M p I) as (e & E & L). right. congruence.
        * left. rewrite V3 in He by exact I. eauto.
      + intros fd f. rewrite F. auto.
      + intros q o. rewrite Q. auto.
    - intros [W1 W2 W3]. split.
      + intros a k H. destruct (Z.eq_dec a pg) as [->|Na]; [|rewrite V4 in H by exact Na; exact (W1 _ _ H)].
        rewrite V1 in H. injection H as <-. auto.
      + intros a k p H I. destruct (Z.eq_dec a pg) as [->|Na].
        * rewrite V1 in H. injection H as <-. destruct (M p I) as (e & E & _). eauto.
        * rewrite V4 in H by exact Na. destruct (W2 _ _ _ H I) as (e & E). eauto.
      + assert (X : forall b m p, n_view s b = Some m -> in_view t b m p -> in_view t pg n p -> False).
        { intros b m p H I J. destruct (W2 _ _ _ H I) as (e & E). rewrite (V2 p J) in E. discriminate. }
        intros a k b m p Ha Hb I J. destruct (Z.eq_dec a pg) as [->|Na]; destruct (Z.eq_dec b pg) as [->|Nb]; [reflexivity| | |].
        * rewrite V1 in Ha. injection Ha as <-. rewrite V4 in Hb by exact Nb. destruct (X _ _ _ Hb J I).
        * rewrite V1 in Hb. injection Hb as <-. rewrite V4 in Ha by exact Na. destruct (X _ _ _ Ha I J).
        * rewrite V4 in Ha by exact Na. rewrite V4 in Hb by exact Nb. exact (W3 _ _ _ _ _ Ha Hb I J).
  Qed.

  (** A view goes. *)
  Lemma ev_removed s s' pg : view_removed t s s' pg ->
    (forall o, w_obj (n_w s') o = w_obj (n_w s) o) -> w_next (n_w s') = w_next (n_w s) ->
    (forall fd, w_fd (n_w s') fd = w_fd (n_w s) fd) -> (forall q, w_fs (n_w s') q = w_fs (n_w s) q) ->
    evolves t (fun a => a = pg) none none s s'.
  Proof.
    intros (n & V1 & V2 & V3 & V4) O N F Q.
    assert (NM : forall o, named (n_w s') o -> named (n_w s) o).
    { intros o [(fd & f & H & <-)|(q & H)]; [left; exists fd, f; rewrite <- F; auto|right; exists q; rewrite <- Q; auto]. }
    assert (SM : forall p e, w_vm (n_w s') p = Some e -> w_vm (n_w s) p = Some e).
    { intros p e He. rewrite V2 in He. destruct (_ && _) in He; [discriminate|exact He]. }
    assert (SV : forall a k, n_view s' a = Some k -> n_view s a = Some k /\ a <> pg).
    { intros a k H. rewrite V3 in H. destruct (Z.eqb_spec a pg); [discriminate|auto]. }
    split.
    - lia.
    - intros a k p e _ _ He. destruct (in_pages_cases (pg / P) n p) as [[E I]|[E I]].
      + left. exists pg, n. auto.
      + right. exists e. split; [rewrite V2; unfold in_pages in E; rewrite E; exact He|]. split; [apply kept_refl|auto].
    - intros a k H. destruct (Z.eq_dec a pg) as [->|Na]; [auto|]. right. rewrite V3. apply Z.eqb_neq in Na. rewrite Na. exact H.
    - intros a k H. destruct (SV a k H). auto.
    - intros o _ _. rewrite O. reflexivity.
    - intros o _ _. right. rewrite O. reflexivity.
    - auto.
    - intros W. apply (wf_change _ _ W); try lia.
      + intros p e' He. left. apply SM in He. eauto.
      + intros fd f. rewrite F. auto.
      + intros q o. rewrite Q. auto.
      + intros o. rewrite O. auto.
    - intros [W1 W2 W3]. split.
      + intros a k H. destruct (SV a k H) as [H' _]. exact (W1 _ _ H').
      + intros a k p H I. destruct (SV a k H) as [H' Na]. destruct (W2 _ _ _ H' I) as (e & E). exists e. rewrite V2.
        fold (in_pages (pg / P) n p). rewrite in_pages_no; [exact E|]. intros J. apply Na. exact (W3 _ _ _ _ _ H' V1 I J).
      + intros a k b m p H1 H2. destruct (SV a k H1) as [H1' _]. destruct (SV b m H2) as [H2' _]. exact (W3 _ _ _ _ _ H1' H2').
  Qed.
End Space.
