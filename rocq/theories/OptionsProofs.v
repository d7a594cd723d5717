From Coq Require Import Lia.
From Verif Require Import Base ErrorModel OsModel MapModel MapSpec OptionsSpec MapClaims.

Lemma last_sets k l s : last_call k l = Some s -> sets s = k.
Proof.
  induction l as [|x l IH]; cbn; [discriminate|]. destruct (last_call k l) as [y|]; [intros H; injection H as ->; auto|].
  destruct (setting_eq (sets x) k) eqn:E; [|discriminate]. intros H. injection H as ->. destruct (sets s), k; try discriminate E; reflexivity.
Qed.

Lemma expected_nil o : expected [] o = o.
Proof. destruct o as [[] ? ? ? ? ?]. reflexivity. Qed.
Lemma expected_cons s l o : expected (s :: l) o = expected l (apply s o).
Proof.
  unfold expected. cbn [last_call].
  pose proof (last_sets KAccess l) as A. pose proof (last_sets KCreate l) as B. pose proof (last_sets KCreateNew l) as C.
  pose proof (last_sets KTruncate l) as D. pose proof (last_sets KOffset l) as E. pose proof (last_sets KLen l) as F. pose proof (last_sets KResize l) as G.
  destruct (last_call KAccess l) as [x1|]; [pose proof (A _ eq_refl) as A1; destruct x1; try discriminate A1|];
  (destruct (last_call KCreate l) as [x2|]; [pose proof (B _ eq_refl) as B1; destruct x2; try discriminate B1|]);
  (destruct (last_call KCreateNew l) as [x3|]; [pose proof (C _ eq_refl) as C1; destruct x3; try discriminate C1|]);
  (destruct (last_call KTruncate l) as [x4|]; [pose proof (D _ eq_refl) as D1; destruct x4; try discriminate D1|]);
  (destruct (last_call KOffset l) as [x5|]; [pose proof (E _ eq_refl) as E1; destruct x5; try discriminate E1|]);
  (destruct (last_call KLen l) as [x6|]; [pose proof (F _ eq_refl) as F1; destruct x6; try discriminate F1|]);
  (destruct (last_call KResize l) as [x7|]; [pose proof (G _ eq_refl) as G1; destruct x7; try discriminate G1|]);
  destruct s; reflexivity.
Qed.
Lemma build_expected l : forall o, build l o = expected l o.
Proof.
  induction l as [|s l IH]; intros o.
  - symmetry. apply expected_nil.
  - rewrite expected_cons. apply (IH (apply s o)).
Qed.

Lemma apply_commute s1 s2 o : sets s1 <> sets s2 -> apply s1 (apply s2 o) = apply s2 (apply s1 o).
Proof. intros N. destruct s1, s2; try reflexivity; elim N; reflexivity. Qed.
Lemma apply_last s1 s2 o : sets s1 = sets s2 -> apply s1 (apply s2 o) = apply s1 o.
Proof. intros N. destruct s1, s2; try discriminate N; reflexivity. Qed.

Lemma open_refused t o path w : oo_write (op_open o) = false ->
  oo_create (op_open o) = true \/ oo_create_new (op_open o) = true \/ oo_truncate (op_open o) = true ->
  open_if t o path w = (Err (error_io MapFile (IoOs EINVAL)), w) /\ open_ t o path w = (Err (error_io MapFile (IoOs EINVAL)), w).
Proof.
  intros Wr C. assert (E : open_if t o path w = (Err (error_io MapFile (IoOs EINVAL)), w)).
  { unfold open_if, sbind, io_call, file_open. rewrite Wr. cbn [negb andb].
    assert (X : oo_create (op_open o) || oo_create_new (op_open o) || oo_truncate (op_open o) = true).
    { destruct C as [->|[-> | ->]]; rewrite ?orb_true_r; reflexivity. }
    rewrite X. reflexivity. }
  split; [exact E|]. rewrite open_agrees, E. reflexivity.
Qed.

(** A [MapMut] builder stays writable whatever is called on it. *)
Lemma mut_builder l : prot_writes (op_protect (build l mapmut_with_options)) = true.
Proof.
  rewrite build_expected. unfold expected. cbn [op_protect]. destruct (last_call KAccess l) as [s|] eqn:E; [|reflexivity].
  apply last_sets in E. destruct s; try discriminate E; reflexivity.
Qed.
Lemma access_matches l o : (oo_write (op_open o) = true <-> op_protect o = ReadWrite) ->
  (oo_write (op_open (build l o)) = true <-> op_protect (build l o) = ReadWrite).
Proof.
  intros H. rewrite build_expected. unfold expected. cbn [op_protect op_open oo_write]. destruct (last_call KAccess l) as [s|] eqn:E; [|exact H].
  apply last_sets in E. destruct s; try discriminate E; split; intros X; try discriminate X; reflexivity.
Qed.
