(** What the theorems C110 speak about. *)
From Verif Require Import Base ErrorModel SizeModel OsModel MapModel MapSpec RingMapSpec OsLayerModel OsLayerSpec OsRingModel OsRingSpec MachModel MachRingModel.

(** Rings of whole pages, as [Ring::new] asks for (src/io/ring.rs:72-81);
    without overflow checks, of less than half the address space.  For other
    lengths see C31_unaligned_refuted and C31_huge_refuted. *)
Definition mocall_ok (t : target) (c : mocall) : Prop :=
  match c with
  | MMap len => (t_page t | len) /\ is_usize t len /\ (t_checks t = true \/ len < 2 ^ (t_bits t - 1))
  | _ => True
  end.

(** [unmap_ring] with this length reaches page [q]; there is no error for an
    address that is not aligned, and nothing is done for no bytes. *)
Definition reaches (t : target) (pg len q : Z) : bool :=
  let l := (2 * len) mod 2 ^ t_bits t in (0 <? l) && overlaps t pg l q.

(** Page [q] before ([s]) and after ([s']) a call with this answer. *)
Definition mpage_step (t : target) (q : Z) (s : option access) (ca : mocall * out error Z) (s' : option access) : Prop :=
  match ca with
  | (MOs c, r) => s' = page_after t q s (c, r)
  | (MMap len, Ret a) => if overlaps t a (2 * len) q then s = None /\ s' = Some ring_access else s' = s
  | (MMap _, Err e) => s' = s \/ (s = None /\ (e_op e = RingPrimary \/ e_op e = RingEntry \/ e_op e = RingSecondary))
  | (MUnmap pg len, Ret _) => s' = if reaches t pg len q then None else s
  | _ => s' = s
  end.
Fixpoint mexplained (t : target) (q : Z) (s : option access) (l : list (mocall * out error Z)) (s' : option access) : Prop :=
  match l with
  | [] => s' = s
  | ca :: l => exists s1, mpage_step t q s ca s1 /\ mexplained t q s1 l s'
  end.

Definition munmaps (t : target) (q : Z) (ca : mocall * out error Z) : bool :=
  match ca with
  | (MOs (OUnmap pg len), Ret _) => overlaps t pg len q
  | (MUnmap pg len, Ret _) => reaches t pg len q
  | _ => false
  end.
Definition mleft_alone (t : target) (pg len : Z) (l : list (mocall * out error Z)) : Prop :=
  forall ca q, In ca l -> overlaps t pg len q = true -> munmaps t q ca = false.
