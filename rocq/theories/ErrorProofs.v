(** Proofs about src/error.rs (C53, C54). *)
From Coq Require Import String Ascii Lia.
From Verif Require Import Base ErrorModel ErrorSpec.
Open Scope string_scope.

Lemma built_total e : exists op src k raw, built e op src k raw.
Proof.
  destruct e as [[x|i|[c|c]] op].
  - do 4 eexists. apply (B_io op x).
  - do 4 eexists. apply (B_input op i).
  - do 4 eexists. apply (B_system op c).
  - do 4 eexists. apply (B_kernel op c).
Qed.

Lemma built_sound e op src k raw : built e op src k raw ->
  error_operation e = op /\ error_source e = src /\ error_kind e = k /\ raw_os_error e = raw /\
  io_kind_of (into_io e) = k /\ io_raw_os (into_io e) = raw /\
  (forall x, src = Some x -> into_io e = x).
Proof.
  intros H. destruct H; cbn; repeat split; auto; try discriminate; intros y H; injection H as <-; reflexivity.
Qed.

Lemma from_into e : error_kind (from_io (into_io e)) = error_kind e /\
  raw_os_error (from_io (into_io e)) = raw_os_error e /\ into_io (from_io (into_io e)) = into_io e.
Proof. destruct e as [[x|i|[c|c]] op]; cbn; auto. Qed.

(** Occurrences of commas, as lists of characters. *)
Fixpoint no_comma (s : string) : bool :=
  match s with
  | EmptyString => true
  | String c s' => (negb (Ascii.eqb c ",") && no_comma s')%bool
  end.

Lemma split_comma a : forall b v w, no_comma a = true -> no_comma b = true ->
  a ++ ", " ++ v = b ++ ", " ++ w -> a = b /\ v = w.
Proof.
  induction a as [|c a IH]; intros [|d b] v w Ha Hb E; cbn in *.
  - injection E as ->. auto.
  - injection E as <- E. discriminate Hb.
  - injection E as -> E. discriminate Ha.
  - injection E as -> E. apply andb_prop in Ha as [_ Ha]. apply andb_prop in Hb as [_ Hb].
    destruct (IH b v w Ha Hb E) as [-> ->]. auto.
Qed.

Lemma ops_no_comma op s : op_as_str op = Some s -> no_comma s = true.
Proof. destruct op; cbn; intros H; try discriminate; injection H as <-; reflexivity. Qed.

Lemma ops_inj op op' s : op_as_str op = Some s -> op_as_str op' = Some s -> op = op'.
Proof. destruct op; destruct op'; cbn; intros H H'; try discriminate; try reflexivity; rewrite <- H' in H; discriminate. Qed.

Lemma op_none op : op_as_str op = None <-> op = OpNone.
Proof. destruct op; cbn; split; congruence. Qed.

Definition cause_text (di : io_error -> string) (ds : sys_error -> string) (e : error) : string :=
  match e_repr e with RIo x => di x | RInput i => input_as_str i | RSystem x => ds x end.

Lemma display_eq di ds e : error_display di ds e =
  match op_as_str (e_op e) with
  | Some s => "failed to " ++ s ++ ", " ++ cause_text di ds e
  | None => cause_text di ds e
  end.
Proof. reflexivity. Qed.

Lemma app_inj_l a : forall x y, a ++ x = a ++ y -> x = y.
Proof. induction a as [|c a IH]; cbn; intros x y H; [exact H|]. injection H as H. auto. Qed.

Lemma sapp_assoc (a b c : string) : (a ++ b) ++ c = a ++ b ++ c.
Proof. induction a as [|x a IH]; cbn; [reflexivity|]. rewrite IH. reflexivity. Qed.

Lemma display_op di ds e e' : e_op e <> OpNone -> e_op e' <> OpNone ->
  error_display di ds e = error_display di ds e' ->
  e_op e = e_op e' /\ cause_text di ds e = cause_text di ds e'.
Proof.
  intros H H' E. rewrite !display_eq in E.
  destruct (op_as_str (e_op e)) as [s|] eqn:S; [|apply op_none in S; contradiction].
  destruct (op_as_str (e_op e')) as [s'|] eqn:S'; [|apply op_none in S'; contradiction].
  apply app_inj_l in E.
  apply split_comma in E as [-> E]; [|eapply ops_no_comma; eassumption|eapply ops_no_comma; eassumption].
  split; [eapply ops_inj; eassumption|exact E].
Qed.

Fixpoint is_prefix (w s : string) : bool :=
  match w, s with
  | EmptyString, _ => true
  | String c w', String d s' => (Ascii.eqb c d && is_prefix w' s')%bool
  | _, _ => false
  end.
Fixpoint has_word (w s : string) : bool :=
  (is_prefix w s || match s with EmptyString => false | String _ s' => has_word w s' end)%bool.

Lemma is_prefix_ok w : forall s, is_prefix w s = true -> exists b, s = w ++ b.
Proof.
  induction w as [|c w IH]; intros [|d s] H; cbn in *; try discriminate.
  - exists "". reflexivity.
  - exists (String d s). reflexivity.
  - apply andb_prop in H as [E H]. apply Ascii.eqb_eq in E. subst d. destruct (IH s H) as (b & ->). exists b. reflexivity.
Qed.

Lemma has_word_ok w s : has_word w s = true -> contains s w.
Proof.
  induction s as [|d s IH]; cbn [has_word]; intros H; apply orb_prop in H as [H|H].
  - destruct (is_prefix_ok w _ H) as (b & E). exists "", b. exact E.
  - discriminate.
  - destruct (is_prefix_ok w _ H) as (b & E). exists "", b. exact E.
  - destruct (IH H) as (a & b & E). exists (String d a), b. rewrite E. reflexivity.
Qed.

Lemma contains_app_l s t w : contains s w -> contains (s ++ t) w.
Proof. intros (a & b & ->). exists a, (b ++ t). rewrite !sapp_assoc. reflexivity. Qed.

Lemma words_in_display di ds e : List.Forall (contains (error_display di ds e)) (op_words (e_op e)).
Proof.
  rewrite display_eq.
  destruct (op_as_str (e_op e)) as [s|] eqn:S.
  - replace ("failed to " ++ s ++ ", " ++ cause_text di ds e) with (("failed to " ++ s) ++ ", " ++ cause_text di ds e)
      by (rewrite sapp_assoc; reflexivity).
    destruct e as [rp op]. cbn [e_op] in *.
    destruct op; cbn in S; try discriminate S; injection S as <-; repeat constructor; apply contains_app_l, has_word_ok; reflexivity.
  - apply op_none in S. rewrite S. constructor.
Qed.
