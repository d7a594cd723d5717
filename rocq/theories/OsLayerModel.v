(** Programs that call the functions of the module [os] directly (feature
    "os", src/lib.rs:151-155) on POSIX, and use the memory in between. *)
From Verif Require Import Base ErrorModel OsModel MapModel.

(** One call of src/os/unix/mod.rs:46-209 with any arguments, or one byte
    stored by the program. *)
Inductive ocall :=
| OMapFile (fd off len : Z) (p : protect)
| OMapAnon (len : Z) (p : protect)
| OUnmap (pg len : Z)
| OProtect (pg len : Z) (p : protect)
| OFlush (pg len : Z) (m : flush_mode)
| OAdvise (pg len : Z) (a : advise_kind)
| OLock (pg len : Z)
| OUnlock (pg len : Z)
| OStore (addr : Z) (b : byte).

Section OsLayer.
  Variable t : target.

  (** The functions without a value answer 0. *)
  Definition no_value (m : ST error unit) : ST error Z := sbind m (fun _ => sret 0).

  (** src/os/unix/mod.rs:46-209 *)
  Definition ostep (c : ocall) : ST error Z :=
    match c with
    | OMapFile fd off len p => os_map_file t fd off len p
    | OMapAnon len p => os_map_anon t len p
    | OUnmap pg len => no_value (os_unmap t pg len)
    | OProtect pg len p => no_value (os_protect t pg len p)
    | OFlush pg len m => no_value (os_flush t pg len m)
    | OAdvise pg len a => no_value (os_advise t pg len a)
    | OLock pg len => no_value (os_lock t pg len)
    | OUnlock pg len => no_value (os_unlock t pg len)
    | OStore addr b => no_value (store t addr b)
    end.

  (** The calls with their answers, in order.  A store that faults ends a real
      program; the run goes on as if it had been skipped. *)
  Fixpoint orun (h : list ocall) (w : world) : list (ocall * out error Z) * world :=
    match h with
    | [] => ([], w)
    | c :: h' =>
      let '(r, w1) := ostep c w in
      let '(l, w2) := orun h' w1 in
      ((c, r) :: l, w2)
    end.
End OsLayer.
