(** What the theorems about programs with maps and rings on Windows speak
    about.  [q_answers], [lq_answers], [zeros]: ProcSpec.v. *)
From Verif Require Import Base ErrorModel RingSpec OsModel MapModel MapSpec RingMapModel MemRingModel ProcModel WinModel WinSpec WinMapModel WinMapSpec WinProcModel.

(** Arguments are values of their Rust types. *)
Definition wpcall_ok (t : target) (c : wpcall) : Prop :=
  match c with
  | WAct a => act_ok t a
  | WRing hint | WInf hint => is_usize t hint
  | WCall _ o => rop_ok t o
  | WICall _ o => irop_args t o
  | WDrop _ => True
  end.

(** States of programs: from a machine on which nothing is mapped. *)
Inductive wpreached (t : target) : wproc -> Prop :=
| wpr_start s : fresh_start s -> wpreached t (wp_fresh s)
| wpr_step p c : wpreached t p -> wpcall_ok t c -> wpreached t (snd (wpstep t c p)).

(** The calls made on ring [k] until it is dropped, and their answers. *)
Fixpoint wcalls_on (k : Z) (h : list wpcall) : list rop :=
  match h with
  | [] => []
  | WCall k' o :: h => if k' =? k then o :: wcalls_on k h else wcalls_on k h
  | WDrop k' :: h => if k' =? k then [] else wcalls_on k h
  | _ :: h => wcalls_on k h
  end.
Fixpoint wicalls_on (k : Z) (h : list wpcall) : list irop :=
  match h with
  | [] => []
  | WICall k' o :: h => if k' =? k then o :: wicalls_on k h else wicalls_on k h
  | WDrop k' :: h => if k' =? k then [] else wicalls_on k h
  | _ :: h => wicalls_on k h
  end.
Definition wring_answer (x : wpresult) : list (out io_error rout) := match x with WAns r => [r] | _ => [] end.
Fixpoint wanswers_on (k : Z) (h : list wpcall) (xs : list wpresult) : list (out io_error rout) :=
  match h, xs with
  | WCall k' _ :: h, x :: xs => if k' =? k then wring_answer x ++ wanswers_on k h xs else wanswers_on k h xs
  | WICall k' _ :: h, x :: xs => if k' =? k then wring_answer x ++ wanswers_on k h xs else wanswers_on k h xs
  | WDrop k' :: h, _ :: xs => if k' =? k then [] else wanswers_on k h xs
  | _ :: h, _ :: xs => wanswers_on k h xs
  | _, _ => []
  end.

(** The calls after which other bytes may be read through thing [k]. *)
Definition wp_touches (c : wpcall) (k : Z) : Prop :=
  match c with WAct a => touches a k | WCall k' _ | WICall k' _ | WDrop k' => k' = k | WRing _ | WInf _ => False end.
(** The ring a call is made on. *)
Definition wp_subject (c : wpcall) : option Z := match c with WCall k _ | WICall k _ | WDrop k => Some k | _ => None end.

(** The kernel refused no release during the call, and it is not the drop of a
    map of no bytes (C66). *)
Definition wp_tidy (t : target) (c : wpcall) (p : wproc) : Prop :=
  released (g_s (wp_g p)) (g_s (wp_g (snd (wpstep t c p)))) /\ match c with WAct a => drops_filled a (wp_g p) | _ => True end.
Inductive wptidily (t : target) (s : win) : wproc -> Prop :=
| wpt_start : fresh_start s -> wptidily t s (wp_fresh s)
| wpt_step p c : wptidily t s p -> wpcall_ok t c -> wp_tidy t c p -> wptidily t s (snd (wpstep t c p)).
