(** Executable memory: what the theorems C105 speak about. *)
From Verif Require Import Base WinModel WinMapModel WinProcModel WinThreadModel OsModel MapModel MapSpec ApiModel ProcModel ThreadModel MachThreadModel.

(** Every page of [w'] has a pair of permissions to write and to execute that
    is [good], or had the same pair in [w]. *)
Definition permissions (good : bool -> bool -> Prop) (w w' : world) : Prop :=
  forall p e', w_vm w' p = Some e' ->
    good (p_w e') (p_x e') \/ exists e, w_vm w p = Some e /\ p_w e = p_w e' /\ p_x e = p_x e'.

(** Not both. *)
Definition one_of (w x : bool) : Prop := w = true -> x = true -> False.
(** Not executable. *)
Definition not_executable (w x : bool) : Prop := x = false.

(** The options a call that makes a map is given. *)
Definition call_options (c : call) : option options :=
  match c with COpen _ o _ | CMap _ o _ | CAlloc _ o => Some o | _ => None end.
Definition event_options (e : event) : option options :=
  match e with
  | ECall (PMap c) => call_options c
  | EOpen _ _ o _ | EMap _ _ o _ => Some o
  | _ => None
  end.
(** The event asks for no executable map.  No method of [Options] sets
    [Protect::ReadExec] (src/map.rs:525, 557, 591). *)
Definition no_exec (e : event) : Prop := forall o, event_options e = Some o -> prot_execs (op_protect o) = false.

(** The same on Windows. *)
Definition act_options (a : WinMapModel.act) : option options :=
  match a with WinMapModel.AOpen _ o _ | WinMapModel.AMap _ o _ | WinMapModel.AAlloc _ o => Some o | _ => None end.
Definition wevent_options (e : wevent) : option options :=
  match e with
  | WECall (WAct a) => act_options a
  | WEOpen _ _ o _ | WEMap _ _ o _ | WEAlloc _ _ o => Some o
  | _ => None
  end.
Definition wno_exec (e : wevent) : Prop := forall o, wevent_options e = Some o -> prot_execs (op_protect o) = false.
