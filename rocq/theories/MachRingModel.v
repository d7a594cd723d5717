(** Programs that call the functions of the module [os] directly on macOS and
    iOS (feature "os", src/lib.rs:151-155), those for rings included. *)
From Verif Require Import Base ErrorModel OsModel MapModel MachModel OsLayerModel.

(** A call of OsLayerModel.v (src/os/unix/mod.rs:46-209);
    [os::map_ring] (src/os/unix/mach.rs:79-131); [os::unmap_ring]
    (144-152). *)
Inductive mocall :=
| MOs (c : ocall)
| MMap (len : Z)
| MUnmap (pg len : Z).

Section MachRing.
  Variable t : target.

  Definition mostep (c : mocall) : MT error Z :=
    match c with
    | MOs c => on_world (ostep t c)
    | MMap len => mach_map_ring t len
    | MUnmap pg len => mbind (mach_unmap_ring t pg len) (fun _ => mret 0)
    end.

  (** The calls with their answers, in order.  After a panic or a fault the run
      goes on as if it had been caught. *)
  Fixpoint morun (h : list mocall) (s : mach) : list (mocall * out error Z) * mach :=
    match h with
    | [] => ([], s)
    | c :: h' =>
      let '(r, s1) := mostep c s in
      let '(l, s2) := morun h' s1 in
      ((c, r) :: l, s2)
    end.
End MachRing.
