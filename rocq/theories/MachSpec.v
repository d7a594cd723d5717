(** Specification side of the ring allocation on macOS and iOS. *)
From Verif Require Import Base ErrorModel OsModel RingMapModel MachModel.

(** The four kernel calls of an allocation, in order. *)
Definition mach_stage (k : nat) : operation := nth k [RingAllocate; RingPrimary; RingEntry; RingSecondary] OpNone.

(** A kernel error of one of the four calls. *)
Definition mach_error (k : nat) (e : error) : Prop := (k < 4)%nat /\ exists c, e = error_kernel (mach_stage k) c.

(** The task holds the same port rights. *)
Definition same_ports (s s' : mach) : Prop := forall port, mc_ports s' port = mc_ports s port.

(** The task holds exactly one right more than before. *)
Definition one_port_more (s s' : mach) : Prop :=
  exists port, mc_ports s port = None /\ mc_ports s' port <> None /\
    forall q, q <> port -> mc_ports s' q = mc_ports s q.

(** Answers of a kernel that grants all four calls: the reservation at [pg]
    and the port name [port]. *)
Definition mach_grants (pg x port y : Z) : list answer := [Grant pg; Grant x; Grant port; Grant y].

(** Rings of the given sizes made and dropped one after the other. *)
Fixpoint cycles (t : target) (hints : list Z) : MT error unit :=
  match hints with
  | [] => mret tt
  | h :: hints => mdo* r <- mach_ring_new t h; mdo* _ <- mach_ring_drop t r; cycles t hints
  end.

(** Exactly [k] rights more than before. *)
Definition ports_more (k : nat) (s s' : mach) : Prop :=
  exists l, NoDup l /\ length l = k /\ (forall q, In q l -> mc_ports s q = None /\ mc_ports s' q <> None) /\
    forall q, ~ In q l -> mc_ports s' q = mc_ports s q.
