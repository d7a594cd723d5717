(** Programs that call the functions of the module [os] directly on Windows
    (feature "os", src/lib.rs:151-155), those for rings included. *)
From Verif Require Import Base ErrorModel OsModel MapModel WinModel OsLayerModel WinOsModel.

(** A call of WinOsModel.v, with the handle flush is given; [os::map_ring]
    (src/os/windows.rs:165-178); [os::unmap_ring] (211-218). *)
Inductive wrcall :=
| WOs (file : Z) (c : ocall)
| WMapRing (len : Z)
| WUnmapRing (pg len : Z).

(** A call, its answer, and the calls of the kernel it made, the last first. *)
Record wevent := { ev_call : wrcall; ev_answer : out error Z; ev_kernel : list (wcall * bool) }.

Section WinOsRing.
  Variable t : target.

  Definition wrstep (c : wrcall) : WT error Z :=
    match c with
    | WOs file c => wostep t file c
    | WMapRing len => win_map_ring t len
    | WUnmapRing pg len => wno_value (win_unmap_ring t pg len)
    end.

  (** What happened, in order.  After a panic or a fault the run goes on as if
      it had been caught. *)
  Fixpoint wrrun (h : list wrcall) (s : win) : list wevent * win :=
    match h with
    | [] => ([], s)
    | c :: h' =>
      let '(r, s1) := wrstep c s in
      let '(l, s2) := wrrun h' s1 in
      ({| ev_call := c; ev_answer := r; ev_kernel := firstn (length (n_log s1) - length (n_log s)) (n_log s1) |} :: l, s2)
    end.
End WinOsRing.
