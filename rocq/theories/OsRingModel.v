(** Programs that call the functions of the module [os] directly on POSIX
    (feature "os", src/lib.rs:151-155), those for rings included. *)
From Verif Require Import Base ErrorModel OsModel MapModel RingMapModel OsLayerModel.

(** A call of OsLayerModel.v; [os::map_ring] (src/os/unix/posix/mod.rs:22-30),
    with the readings of the clock during this call; [os::unmap_ring]
    (87-89). *)
Inductive rocall :=
| ROs (c : ocall)
| RMap (clock : nat -> Z) (len : Z)
| RUnmap (pg len : Z).

Section OsRing.
  Variable t : target.
  Variable plat : platform.

  Definition rostep (c : rocall) : ST error Z :=
    match c with
    | ROs c => ostep t c
    | RMap clock len => map_ring t plat clock len
    | RUnmap pg len => no_value (unmap_ring t pg len)
    end.

  (** The calls with their answers, in order.  After a panic or a fault the run
      goes on as if it had been caught. *)
  Fixpoint rorun (h : list rocall) (w : world) : list (rocall * out error Z) * world :=
    match h with
    | [] => ([], w)
    | c :: h' =>
      let '(r, w1) := rostep c w in
      let '(l, w2) := rorun h' w1 in
      ((c, r) :: l, w2)
    end.
End OsRing.
