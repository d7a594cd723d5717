(** What the theorems C107 speak about: the pages and views of a program,
    read off from the answers its calls gave. *)
From Verif Require Import Base ErrorModel OsModel MapModel MapSpec WinModel WinSpec OsLayerModel OsLayerSpec.

(** A page: the base address of its view, if it is one of a view, and what it
    allows. *)
Record wpage := { wp_base : option Z; wp_access : access }.

(** Page [q] after one call that gave this answer.  The answer of unmap is the
    wrong way round (C33): an error means that the whole view that starts at
    [pg] is gone, whatever the length. *)
Definition wpage_after (t : target) (q : Z) (s : option wpage) (ca : ocall * out error Z) : option wpage :=
  match ca with
  | (OMapFile _ _ len p, Ret a) | (OMapAnon len p, Ret a) =>
    if overlaps t a len q
    then Some {| wp_base := Some a;
                 wp_access := {| ac_w := prot_writes p; ac_x := prot_execs p; ac_shared := win_shares p; ac_lock := false |} |}
    else s
  | (OUnmap pg _, Err _) =>
    match s with
    | Some x => match wp_base x with Some b => if b =? pg then None else s | None => s end
    | None => None
    end
  | (OProtect pg len p, Ret _) =>
    match s with
    | Some x => if overlaps t pg len q
                then Some {| wp_base := wp_base x;
                             wp_access := {| ac_w := prot_writes p; ac_x := prot_execs p; ac_shared := ac_shared (wp_access x);
                                             ac_lock := ac_lock (wp_access x) |} |}
                else s
    | None => None
    end
  | (OLock pg len, Ret _) =>
    match s with
    | Some x => if overlaps t pg len q
                then Some {| wp_base := wp_base x;
                             wp_access := {| ac_w := ac_w (wp_access x); ac_x := ac_x (wp_access x); ac_shared := ac_shared (wp_access x);
                                             ac_lock := true |} |}
                else s
    | None => None
    end
  | (OUnlock pg len, Ret _) =>
    match s with
    | Some x => if overlaps t pg len q
                then Some {| wp_base := wp_base x;
                             wp_access := {| ac_w := ac_w (wp_access x); ac_x := ac_x (wp_access x); ac_shared := ac_shared (wp_access x);
                                             ac_lock := false |} |}
                else s
    | None => None
    end
  | _ => s
  end.

(** The pages and views of [s] are those of the table [S]. *)
Record table (t : target) (s : win) (S : Z -> option wpage) : Prop := {
  tb_page : forall q, option_map access_of (w_vm (n_w s) q) = option_map wp_access (S q);
  tb_view : forall b n, n_view s b = Some n ->
    b mod t_page t = 0 /\
    forall q, b <= t_page t * q < b + t_page t * n <-> exists x, S q = Some x /\ wp_base x = Some b;
  tb_base : forall q x b, S q = Some x -> wp_base x = Some b -> exists n, n_view s b = Some n
}.

(** Arguments are words and addresses; a file is not mapped with length 0
    (which stands for the rest of the file: C61). *)
Definition wocall_ok (t : target) (c : ocall) : Prop :=
  match c with
  | OMapFile _ off len _ => is_usize t off /\ 0 < len
  | OMapAnon len _ => is_usize t len
  | OProtect pg _ _ | OFlush pg _ _ | OLock pg _ | OUnlock pg _ => 0 <= pg
  | OUnmap _ _ | OAdvise _ _ _ | OStore _ _ => True
  end.

(** The operations an error of a call can name. *)
Definition woperation_of (c : ocall) : list operation :=
  match c with
  | OMapFile _ _ _ _ => [MapFileHandle; MapFileView]
  | OMapAnon _ _ => [MapAnonymousHandle; MapAnonymousView]
  | OUnmap _ _ => [Unmap]
  | OProtect _ _ _ => [OpProtect]
  | OFlush _ _ _ => [OpFlush]
  | OLock _ _ => [OpLock]
  | OUnlock _ _ => [OpUnlock]
  | OAdvise _ _ _ | OStore _ _ => []
  end.

(** A place where a new view of [len] bytes can go: free, aligned, inside the
    address space, and not held by another thread ([others]). *)
Definition wplace (t : target) (s : win) (others : Z -> bool) (a len : Z) : Prop :=
  0 < len /\ t_page t <= a /\ a mod t_alloc t = 0 /\ n_view s a = None /\ n_resv s a = None /\
  forall q, overlaps t a len q = true ->
    w_vm (n_w s) q = None /\ others q = false /\ t_page t * (q + 1) <= 2 ^ t_bits t - t_page t.

(** A range of at least one byte, all of whose pages are mapped. *)
Definition wmapped (t : target) (s : win) (pg len : Z) : Prop :=
  0 < len /\ forall q, overlaps t pg len q = true -> exists e, w_vm (n_w s) q = Some e.

(** The pages other threads hold at the second call from here. *)
Definition others_then (s : win) : Z -> bool := hd (fun _ => false) (tl (n_env s)).
