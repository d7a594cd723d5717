(** Other processes on Windows leave the address space of the program as it
    is. *)
From Coq Require Import Lia.
From Verif Require Import Base Spec ErrorModel SizeModel OsModel OthersModel MapModel MapSpec OsProofs MapProofs MapCreate MapOps OthersProofs
  WinModel WinSpec WinMapModel WinMapSpec WinSpace.

(** What an act of another process reaches by a name. *)
Definition reached_by (w : world) (e : other) (o : Z) : Prop :=
  match e with
  | OGrow path _ | OCut path _ | OWrite path _ _ _ => w_fs w path = Some o
  | _ => False
  end.

Lemma reached_named w e o : reached_by w e o -> named w o.
Proof. destruct e; cbn; try contradiction; intros H; right; eauto. Qed.

Section Others.
  Variable t : target.

  Lemma others_named e w o : named (others t e w) o -> named w o \/ w_next w <= o.
  Proof.
    intros [(fd & f & H & Ho)|(path & H)].
    - left. left. exists fd, f. split; [|exact Ho]. revert H. destruct e; cbn [others]; unfold at_name; repeat match goal with
        | |- context [match ?x with Some _ => _ | None => _ end] => destruct x
        | |- context [if ?b then _ else _] => destruct b
        end; auto.
    - revert H. destruct e as [q|q|from to|q sz|q sz|q off d sync]; cbn [others]; unfold at_name.
      + destruct (w_fs w q) eqn:E; [left; right; eauto|]. cbn. unfold put. destruct (_ =? _); [intros [= <-]; right; lia|left; right; eauto].
      + cbn. unfold put. destruct (_ =? _); [discriminate|left; right; eauto].
      + destruct (w_fs w from) as [x|] eqn:E; [|left; right; eauto]. cbn. unfold put. destruct (_ =? _); [intros [= <-]; left; right; eauto|left; right; eauto].
      + destruct (w_fs w q); [destruct (_ <? _)|]; left; right; eauto.
      + destruct (w_fs w q); [destruct (_ <? _)|]; left; right; eauto.
      + destruct (w_fs w q); left; right; eauto.
  Qed.

  Lemma others_same_obj e w o : o < w_next w -> ~ reached_by w e o -> w_obj (others t e w) o = w_obj w o.
  Proof.
    intros Hn Hr. destruct e as [q|q|from to|q sz|q sz|q off d sync]; cbn [others reached_by] in *; unfold at_name.
    - destruct (w_fs w q); [reflexivity|]. cbn. unfold put. destruct (Z.eqb_spec o (w_next w)); [lia|reflexivity].
    - reflexivity.
    - destruct (w_fs w from); reflexivity.
    - destruct (w_fs w q) as [x|]; [|reflexivity]. destruct (_ <? _); [|reflexivity]. cbn. unfold put. destruct (Z.eqb_spec o x); [congruence|reflexivity].
    - destruct (w_fs w q) as [x|]; [|reflexivity]. destruct (_ <? _); [|reflexivity]. cbn. unfold put. destruct (Z.eqb_spec o x); [congruence|reflexivity].
    - destruct (w_fs w q) as [x|]; [|reflexivity]. cbn. unfold put. destruct (Z.eqb_spec o x); [congruence|reflexivity].
  Qed.

  (** Private copies are dropped only with the end of their file. *)
  Lemma others_page e w p x : w_vm w p = Some x -> exists x', w_vm (others t e w) p = Some x' /\ same_place x x' /\
    (p_copy x' = p_copy x \/ (reached_by w e (p_obj x) /\ p_copy x' = None)).
  Proof.
    intros H. assert (Id : exists x', w_vm w p = Some x' /\ same_place x x' /\ (p_copy x' = p_copy x \/ (reached_by w e (p_obj x) /\ p_copy x' = None))).
    { exists x. split; [exact H|]. split; [apply same_place_refl|left; reflexivity]. }
    assert (Rz : forall o sz, reached_by w e o -> exists x', w_vm (resize_obj t o sz w) p = Some x' /\ same_place x x' /\
      (p_copy x' = p_copy x \/ (reached_by w e (p_obj x) /\ p_copy x' = None))).
    { intros o sz R. unfold resize_obj. cbn [set_vm set_obj w_vm]. rewrite H. destruct (Z.eqb_spec (p_obj x) o) as [E|N]; cbn [andb].
      - destruct (_ && _); [|exists x; split; [reflexivity|]; split; [apply same_place_refl|left; reflexivity]].
        exists (set_copy None x). split; [reflexivity|]. split; [repeat split|]. right. rewrite E. auto.
      - exists x. split; [reflexivity|]. split; [apply same_place_refl|left; reflexivity]. }
    destruct e as [q|q|from to|q sz|q sz|q off d sync]; cbn [others] in *; unfold at_name; try exact Id.
    - destruct (w_fs w q); exact Id.
    - destruct (w_fs w from); exact Id.
    - destruct (w_fs w q) as [o|] eqn:E; [|exact Id]. destruct (_ <? _); [apply Rz; exact E|exact Id].
    - destruct (w_fs w q) as [o|] eqn:E; [|exact Id]. destruct (_ <? _); [apply Rz; exact E|exact Id].
    - destruct (w_fs w q); exact Id.
  Qed.

  Lemma others_unmapped e w p : w_vm w p = None -> w_vm (others t e w) p = None.
  Proof.
    intros H. destruct e as [q|q|from to|q sz|q sz|q off d sync]; cbn [others]; unfold at_name; try exact H.
    - destruct (w_fs w q); exact H.
    - destruct (w_fs w from); exact H.
    - destruct (w_fs w q) as [o|]; [|exact H]. destruct (_ <? _); [|exact H]. unfold resize_obj. cbn [set_vm set_obj w_vm]. rewrite H. reflexivity.
    - destruct (w_fs w q) as [o|]; [|exact H]. destruct (_ <? _); [|exact H]. unfold resize_obj. cbn [set_vm set_obj w_vm]. rewrite H. reflexivity.
    - destruct (w_fs w q); exact H.
  Qed.
  Lemma others_fd e w : w_fd (others t e w) = w_fd w.
  Proof. destruct e; cbn [others]; unfold at_name; repeat match goal with
    | |- context [match ?x with Some _ => _ | None => _ end] => destruct x
    | |- context [if ?b then _ else _] => destruct b
    end; reflexivity. Qed.

  Lemma wothers_space e s : n_view (wothers t e s) = n_view s /\ n_resv (wothers t e s) = n_resv s /\ n_sec (wothers t e s) = n_sec s /\
    n_log (wothers t e s) = n_log s /\ n_env (wothers t e s) = n_env s /\ n_last (wothers t e s) = n_last s /\ n_w (wothers t e s) = others t e (n_w s).
  Proof. repeat split; reflexivity. Qed.

  Lemma wothers_keeps e s : ApiSpec.other_ok e -> keeps t s (wothers t e s).
  Proof.
    intros He. pose proof (others_interfered t e (n_w s) He) as I. assert (W : forall s, n_w (wothers t e s) = others t e (n_w s)) by reflexivity. split.
    - rewrite W. exact (iv_next _ _ I).
    - intros a n p x _ _ Hx. right. rewrite W. destruct (others_page e _ _ _ Hx) as (x' & V & S & C). exists x'. split; [exact V|].
      split; [unfold kept; unfold same_place in S; intuition congruence|]. right. destruct C as [C|[R C]]; [left; exact C|right]. split; [exact (reached_named _ _ _ R)|exact C].
    - intros a n V. right. exact V.
    - intros a n V. left. exact V.
    - intros o Hn Hm. rewrite W, others_same_obj; auto. intros R. apply Hm. exact (reached_named _ _ _ R).
    - intros o Hn Hm. right. intros i. rewrite W, others_same_obj; auto. intros R. apply Hm. exact (reached_named _ _ _ R).
    - intros o. rewrite W. apply others_named.
    - rewrite W. exact (iv_wf _ _ I).
    - intros [S1 S2 S3]. split; [exact S1| |exact S3]. intros a n p V Hp. destruct (S2 a n p V Hp) as (x & Hx). rewrite W.
      destruct (others_page e _ _ _ Hx) as (x' & V' & _). eauto.
  Qed.
End Others.
