(** Property theorems C53, C54: src/error.rs. *)
From Coq Require Import String.
From Verif Require Import Base ErrorModel ErrorSpec ErrorProofs.
Open Scope string_scope.

(** ** C53.  [built] lists the ways to make an error with the operation, cause,
    kind and OS code put in; every error is built, and every accessor and the
    conversion to [std::io::Error] give back what was put in. *)
Theorem C53_errors_keep_cause : forall e,
  (exists op src k raw, built e op src k raw) /\
  (forall op src k raw, built e op src k raw ->
     error_operation e = op /\ error_source e = src /\ error_kind e = k /\ raw_os_error e = raw /\
     io_kind_of (into_io e) = k /\ io_raw_os (into_io e) = raw /\
     (forall x, src = Some x -> into_io e = x)).
Proof. intros e. split; [exact (built_total e)|]. intros op src k raw. exact (built_sound e op src k raw). Qed.
Example C53_case :
  built (error_io OpFlush (IoOs 28)) OpFlush (Some (IoOs 28)) (OtherKind 28) (Some 28%Z) /\
  into_io (error_io OpFlush (IoOs 28)) = IoOs 28 /\
  into_io (last_os_error OpLock 12) = IoOs 12 /\
  into_io (error_input MapFile InvalidRange) = IoCustom InvalidInput "invalid range".
Proof. split; [apply (B_io OpFlush (IoOs 28))|]. repeat split. Qed.
Print Assumptions C53_errors_keep_cause.

Theorem C53_round_trip : forall e,
  error_kind (from_io (into_io e)) = error_kind e /\
  raw_os_error (from_io (into_io e)) = raw_os_error e /\
  into_io (from_io (into_io e)) = into_io e /\
  (forall F (f : F), from_convert (e, f) = e).
Proof. intros e. destruct (from_into e) as (A & B & C). auto. Qed.
Example C53_round_case : error_kind (from_io (into_io (last_os_error OpLock 13))) = PermissionDenied.
Proof. reflexivity. Qed.
Print Assumptions C53_round_trip.

(** ** C54.  [di] and [ds] are whatever texts std and system_error print. *)
Theorem C54_message : forall di ds e,
  let cause := match e_repr e with RIo x => di x | RInput _ => "invalid range" | RSystem x => ds x end in
  (e_op e = OpNone -> error_display di ds e = cause) /\
  (e_op e <> OpNone -> exists text, text <> "" /\ op_display (e_op e) = text /\
     error_display di ds e = "failed to " ++ text ++ ", " ++ cause) /\
  Forall (contains (error_display di ds e)) (op_words (e_op e)).
Proof.
  intros di ds e. cbv zeta. split; [|split].
  - intros H. rewrite display_eq, H. cbn [op_as_str]. unfold cause_text. destruct (e_repr e) as [x|[]|x]; reflexivity.
  - intros H. exists (op_display (e_op e)). split; [destruct (e_op e); cbn; congruence|]. split; [reflexivity|].
    rewrite display_eq. unfold op_display, cause_text.
    destruct (op_as_str (e_op e)) as [s|] eqn:S; [|apply op_none in S; contradiction].
    destruct (e_repr e) as [x|[]|x]; reflexivity.
  - apply words_in_display.
Qed.
Print Assumptions C54_message.

(** The message determines the operation, whatever the causes are. *)
Theorem C54_message_identifies_operation : forall di ds e e',
  e_op e <> OpNone -> e_op e' <> OpNone ->
  error_display di ds e = error_display di ds e' -> e_op e = e_op e'.
Proof. intros di ds e e' H H' E. exact (proj1 (display_op di ds e e' H H' E)). Qed.
Example C54_case : let di := fun _ : io_error => "io text, with comma" in let ds := fun _ : sys_error => "os text" in
  error_display di ds (error_input MapFile InvalidRange) = "failed to map file, invalid range" /\
  error_display di ds (from_io (IoOs 2)) = "io text, with comma" /\
  error_display di ds (last_os_error OpUnlock 12) <> error_display di ds (error_io OpLock (IoOs 12)).
Proof. cbv zeta. repeat split; discriminate. Qed.
Print Assumptions C54_message_identifies_operation.
