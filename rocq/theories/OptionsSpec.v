(** The option builder seen from outside: a list of setter calls. *)
From Verif Require Import Base ErrorModel OsModel MapModel.

Inductive setter :=
| SWrite | SCopy | SCreate (b : bool) | SCreateNew (b : bool) | STruncate (b : bool)
| SOffset (n : Z) | SLen (e : extent) | SResize (e : extent).

Definition apply (s : setter) (o : options) : options :=
  match s with
  | SWrite => opt_write o
  | SCopy => opt_copy o
  | SCreate b => opt_create b o
  | SCreateNew b => opt_create_new b o
  | STruncate b => opt_truncate b o
  | SOffset n => opt_offset n o
  | SLen e => opt_len e o
  | SResize e => opt_resize e o
  end.
Definition build (l : list setter) (o : options) : options := fold_left (fun o s => apply s o) l o.

(** [write] and [copy] are two values of one setting. *)
Inductive setting := KAccess | KCreate | KCreateNew | KTruncate | KOffset | KLen | KResize.
Definition sets (s : setter) : setting :=
  match s with
  | SWrite | SCopy => KAccess
  | SCreate _ => KCreate
  | SCreateNew _ => KCreateNew
  | STruncate _ => KTruncate
  | SOffset _ => KOffset
  | SLen _ => KLen
  | SResize _ => KResize
  end.
Definition setting_eq (a b : setting) : bool :=
  match a, b with
  | KAccess, KAccess | KCreate, KCreate | KCreateNew, KCreateNew | KTruncate, KTruncate
  | KOffset, KOffset | KLen, KLen | KResize, KResize => true
  | _, _ => false
  end.
(** The last call that sets [k]. *)
Fixpoint last_call (k : setting) (l : list setter) : option setter :=
  match l with
  | [] => None
  | s :: l => match last_call k l with
              | Some s' => Some s'
              | None => if setting_eq (sets s) k then Some s else None
              end
  end.

(** The options that a list of calls must produce. *)
Definition expected (l : list setter) (o : options) : options :=
  {| op_open :=
       {| oo_write := match last_call KAccess l with Some SWrite => true | Some SCopy => false | _ => oo_write (op_open o) end;
          oo_create := match last_call KCreate l with Some (SCreate b) => b | _ => oo_create (op_open o) end;
          oo_create_new := match last_call KCreateNew l with Some (SCreateNew b) => b | _ => oo_create_new (op_open o) end;
          oo_truncate := match last_call KTruncate l with Some (STruncate b) => b | _ => oo_truncate (op_open o) end |};
     op_resize := match last_call KResize l with Some (SResize e) => e | _ => op_resize o end;
     op_len := match last_call KLen l with Some (SLen e) => e | _ => op_len o end;
     op_offset := match last_call KOffset l with Some (SOffset n) => n | _ => op_offset o end;
     op_protect := match last_call KAccess l with Some SWrite => ReadWrite | Some SCopy => ReadCopy | _ => op_protect o end;
     op_truncate := match last_call KTruncate l with Some (STruncate b) => b | _ => op_truncate o end |}.
