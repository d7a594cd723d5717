(** What the theorems C109 speak about. *)
From Verif Require Import Base ErrorModel SizeModel OsModel MapModel MapSpec RingMapModel RingMapSpec OsLayerModel OsLayerSpec OsRingModel.

(** Lengths are values of their Rust type. *)
Definition rocall_ok (t : target) (c : rocall) : Prop :=
  match c with RMap _ len => is_usize t len | _ => True end.

(** The permissions of a ring. *)
Definition ring_access : access := {| ac_w := true; ac_x := false; ac_shared := true; ac_lock := false |}.

(** Page [q] before ([s]) and after ([s']) a call with this answer. Only a ring
    allocation that failed at one of the halves may leave pages behind that
    were free before (if the kernel refuses the cleanup: C28). *)
Definition page_step (t : target) (q : Z) (s : option access) (ca : rocall * out error Z) (s' : option access) : Prop :=
  match ca with
  | (ROs c, r) => s' = page_after t q s (c, r)
  | (RMap _ len, Ret a) => if overlaps t a (2 * len) q then s = None /\ s' = Some ring_access else s' = s
  | (RMap _ _, Err e) => s' = s \/ (s = None /\ (e_op e = RingPrimary \/ e_op e = RingSecondary))
  | (RUnmap pg len, Ret _) => s' = if overlaps t pg ((2 * len) mod 2 ^ t_bits t) q then None else s
  | _ => s' = s
  end.
(** The answers, one after the other, lead from [s] to [s']. *)
Fixpoint explained (t : target) (q : Z) (s : option access) (l : list (rocall * out error Z)) (s' : option access) : Prop :=
  match l with
  | [] => s' = s
  | ca :: l => exists s1, page_step t q s ca s1 /\ explained t q s1 l s'
  end.

(** The call unmapped page [q]. *)
Definition unmaps (t : target) (q : Z) (ca : rocall * out error Z) : bool :=
  match ca with
  | (ROs (OUnmap pg len), Ret _) => overlaps t pg len q
  | (RUnmap pg len, Ret _) => overlaps t pg ((2 * len) mod 2 ^ t_bits t) q
  | _ => false
  end.
(** None of the calls unmapped a page with a byte of the [len] bytes at [pg]. *)
Definition left_alone (t : target) (pg len : Z) (l : list (rocall * out error Z)) : Prop :=
  forall ca q, In ca l -> overlaps t pg len q = true -> unmaps t q ca = false.
