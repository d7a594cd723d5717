(** Programs that call the functions of the module [os] directly (feature
    "os", src/lib.rs:151-155) on Windows, and use the memory in between. *)
From Verif Require Import Base ErrorModel OsModel MapModel WinModel OsLayerModel.

Section WinOs.
  Variable t : target.

  Definition wno_value (m : WT error unit) : WT error Z := wbind m (fun _ => wret 0).

  (** src/os/windows.rs:102-129, 191-324; flush is given the handle [file].
      The rings of the module are C32's. *)
  Definition wostep (file : Z) (c : ocall) : WT error Z :=
    match c with
    | OMapFile fd off len p => win_map_file t fd off len p
    | OMapAnon len p => win_map_anon t len p
    | OUnmap pg len => wno_value (win_unmap t pg len)
    | OProtect pg len p => wno_value (win_protect t pg len p)
    | OFlush pg len m => wno_value (win_flush t pg file len m)
    | OAdvise pg len a => wno_value (win_advise pg len a)
    | OLock pg len => wno_value (win_lock t pg len)
    | OUnlock pg len => wno_value (win_unlock t pg len)
    | OStore addr b => wno_value (fun s => let '(r, w) := store t addr b (n_w s) in (r, with_w s w))
    end.

  (** The calls with their answers, in order; each with the handle flush is
      given. *)
  Fixpoint worun (h : list (Z * ocall)) (s : win) : list (ocall * out error Z) * win :=
    match h with
    | [] => ([], s)
    | (file, c) :: h' =>
      let '(r, s1) := wostep file c s in
      let '(l, s2) := worun h' s1 in
      ((c, r) :: l, s2)
    end.
End WinOs.
