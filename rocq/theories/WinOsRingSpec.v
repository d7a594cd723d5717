(** What the theorems C111 speak about. *)
From Verif Require Import Base ErrorModel OsModel MapModel MapSpec WinModel WinSpec OsLayerModel OsLayerSpec WinOsModel WinOsSpec WinOsRingModel.

(** Arguments are words and addresses. *)
Definition wrcall_ok (t : target) (c : wrcall) : Prop :=
  match c with
  | WOs _ c => wocall_ok t c
  | WMapRing len => is_usize t len
  | WUnmapRing _ _ => True
  end.

(** The permissions of a ring. *)
Definition wring_access : access := {| ac_w := true; ac_x := false; ac_shared := true; ac_lock := false |}.

(** The page without the view that starts at [a]. *)
Definition without (a : Z) (s : option wpage) : option wpage :=
  match s with
  | Some x => match wp_base x with Some b => if b =? a then None else s | None => s end
  | None => None
  end.
(** The last call of the kernel succeeded. *)
Definition last_done (l : list (wcall * bool)) : bool := match l with (_, b) :: _ => b | [] => false end.

(** Page [q] after a call.  A ring is two views of [len] bytes.  unmap_ring
    answers whether the view of the second half could be unmapped; nothing but
    the kernel's own answer tells whether that of the first half was. *)
Definition wrpage_after (t : target) (q : Z) (s : option wpage) (e : wevent) : option wpage :=
  match ev_call e, ev_answer e with
  | WOs _ c, r => wpage_after t q s (c, r)
  | WMapRing len, Ret a =>
    if overlaps t a len q then Some {| wp_base := Some a; wp_access := wring_access |}
    else if overlaps t (a + len) len q then Some {| wp_base := Some (a + len); wp_access := wring_access |}
    else s
  | WUnmapRing pg len, Ret _ =>
    let s := without ((pg + len) mod 2 ^ t_bits t) s in
    if last_done (ev_kernel e) then without pg s else s
  | _, _ => s
  end.

(** While making a ring, the kernel released whatever it was asked to. *)
Definition clean (e : wevent) : Prop :=
  match ev_call e with WMapRing _ => ~ failed_release (ev_kernel e) | _ => True end.

(** The call unmapped, or may have unmapped, the view that starts at [a]. *)
Definition drops_view (t : target) (a : Z) (e : wevent) : Prop :=
  match ev_call e, ev_answer e with
  | WOs _ (OUnmap pg _), Err _ => pg = a
  | WUnmapRing pg len, Ret _ => pg = a \/ (pg + len) mod 2 ^ t_bits t = a
  | _, _ => False
  end.
