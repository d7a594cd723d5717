(** What the theorems C106 speak about: the page table of a program, read off
    from the answers its calls gave. *)
From Verif Require Import Base ErrorModel OsModel MapModel MapSpec OsLayerModel.

(** Page [q] has a byte of the [len] bytes at [pg]. *)
Definition overlaps (t : target) (pg len q : Z) : bool :=
  (pg <? t_page t * (q + 1)) && (t_page t * q <? pg + len).

(** What a page allows. *)
Record access := { ac_w : bool; ac_x : bool; ac_shared : bool; ac_lock : bool }.
Definition access_of (e : pte) : access :=
  {| ac_w := p_w e; ac_x := p_x e; ac_shared := p_shared e; ac_lock := p_lock e |}.

(** Page [q] after one call that gave this answer, from page [q] before. *)
Definition page_after (t : target) (q : Z) (s : option access) (ca : ocall * out error Z) : option access :=
  match ca with
  | (OMapFile _ _ len p, Ret a) | (OMapAnon len p, Ret a) =>
    if overlaps t a len q
    then Some {| ac_w := prot_writes p; ac_x := prot_execs p; ac_shared := prot_shares p; ac_lock := false |} else s
  | (OUnmap pg len, Ret _) => if overlaps t pg len q then None else s
  | (OProtect pg len p, Ret _) =>
    match s with
    | Some x => if overlaps t pg len q
                then Some {| ac_w := prot_writes p; ac_x := prot_execs p; ac_shared := ac_shared x; ac_lock := ac_lock x |} else s
    | None => None
    end
  | (OLock pg len, Ret _) =>
    match s with
    | Some x => if overlaps t pg len q
                then Some {| ac_w := ac_w x; ac_x := ac_x x; ac_shared := ac_shared x; ac_lock := true |} else s
    | None => None
    end
  | (OUnlock pg len, Ret _) =>
    match s with
    | Some x => if overlaps t pg len q
                then Some {| ac_w := ac_w x; ac_x := ac_x x; ac_shared := ac_shared x; ac_lock := false |} else s
    | None => None
    end
  | _ => s
  end.

(** The operation named by an error of a call. *)
Definition operation_of (c : ocall) : option operation :=
  match c with
  | OMapFile _ _ _ _ => Some MapFile
  | OMapAnon _ _ => Some MapAnonymous
  | OUnmap _ _ => Some Unmap
  | OProtect _ _ _ => Some OpProtect
  | OFlush _ _ _ => Some OpFlush
  | OAdvise _ _ _ => Some OpAdvise
  | OLock _ _ => Some OpLock
  | OUnlock _ _ => Some OpUnlock
  | OStore _ _ => None
  end.

(** The calls that change no byte the program sees. *)
Definition keeps_bytes (c : ocall) : bool :=
  match c with
  | OProtect _ _ _ | OFlush _ _ _ | OLock _ _ | OUnlock _ _ => true
  | OAdvise _ _ AdvWillNotNeed => false
  | OAdvise _ _ _ => true
  | _ => false
  end.

(** Memory, files, descriptors and names are as before. *)
Record untouched (w w' : world) : Prop := {
  ut_vm : forall q, w_vm w' q = w_vm w q;
  ut_obj : forall o, w_obj w' o = w_obj w o;
  ut_fd : forall fd, w_fd w' fd = w_fd w fd;
  ut_fs : forall path, w_fs w' path = w_fs w path
}.

(** [len] bytes at [a] are free, page aligned and within the addresses the
    kernel gives out (not the first and not the last page). *)
Definition place (t : target) (w : world) (a len : Z) : Prop :=
  0 < len /\ t_page t <= a /\ a mod t_page t = 0 /\
  forall q, overlaps t a len q = true -> w_vm w q = None /\ t_page t * (q + 1) <= 2 ^ t_bits t - t_page t.

(** [pg] is aligned and all pages with a byte of the range are mapped. *)
Definition all_mapped (t : target) (w : world) (pg len : Z) : Prop :=
  pg mod t_page t = 0 /\ forall q, overlaps t pg len q = true -> exists e, w_vm w q = Some e.
