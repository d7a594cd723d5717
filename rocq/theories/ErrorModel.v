(** Model of src/error.rs and of the parts of [std::io::Error] and
    [system_error::Error] it uses. *)
From Coq Require Import String.
From Verif Require Import Base.
Open Scope string_scope.
Open Scope Z_scope.

(** [std::io::ErrorKind]; kinds this crate never mentions are folded into
    [OtherKind]. *)
Inductive io_kind :=
| NotFound | PermissionDenied | AlreadyExists | InvalidInput | Interrupted
| WriteZero | UnexpectedEof | WouldBlock | BrokenPipe | OtherKind (n : Z).

(** [std::io::Error]: an OS code, a bare kind ([ErrorKind::X.into()]) or a
    kind with a message ([Error::new]). *)
Inductive io_error :=
| IoOs (code : Z)
| IoSimple (k : io_kind)
| IoCustom (k : io_kind) (msg : string).

(** std's decoding of errno values (Linux numbers); codes without a name here
    map to [OtherKind]. *)
Definition decode_kind (code : Z) : io_kind :=
  if code =? 2 then NotFound
  else if (code =? 1) || (code =? 13) then PermissionDenied
  else if code =? 17 then AlreadyExists
  else if code =? 22 then InvalidInput
  else if code =? 4 then Interrupted
  else if code =? 11 then WouldBlock
  else if code =? 32 then BrokenPipe
  else OtherKind code.

Definition io_kind_of (e : io_error) : io_kind :=
  match e with
  | IoOs c => decode_kind c
  | IoSimple k => k
  | IoCustom k _ => k
  end.

Definition io_raw_os (e : io_error) : option Z :=
  match e with IoOs c => Some c | _ => None end.

(** [system_error::Error] (an external crate): an errno value or a Mach
    kernel code.  Assumed behaviour of that crate: an errno error converts to
    the [std::io::Error] with that code; a kernel error has kind Other. *)
Inductive sys_error :=
| SysOs (code : Z)
| SysKernel (code : Z).

Definition sys_kind (e : sys_error) : io_kind :=
  match e with SysOs c => decode_kind c | SysKernel c => OtherKind (-1) end.
Definition sys_raw_os (e : sys_error) : option Z :=
  match e with SysOs c => Some c | SysKernel _ => None end.
Definition sys_into_io (e : sys_error) : io_error :=
  match e with SysOs c => IoOs c | SysKernel c => IoCustom (OtherKind (-1)) "kernel error" end.

(** src/error.rs:310-355 *)
Inductive operation :=
| MapFile | MapFileHandle | MapFileView
| MapAnonymous | MapAnonymousHandle | MapAnonymousView
| Unmap | OpProtect | OpAdvise | OpLock | OpUnlock | OpFlush
| RingAllocate | RingDeallocate | RingEntry | RingPrimary | RingSecondary
| MemoryFd | OpNone.

(** src/error.rs:415-418 *)
Inductive input := InvalidRange.

(** src/error.rs:49-58 *)
Inductive repr :=
| RIo (e : io_error)
| RInput (i : input)
| RSystem (e : sys_error).
Record error := { e_repr : repr; e_op : operation }.

(** src/error.rs:76-81, 98-103, 121-126, 143-145, 160-162.  [last_os_error]
    takes the errno left by the failed call. *)
Definition error_io (op : operation) (e : io_error) : error := {| e_repr := RIo e; e_op := op |}.
Definition error_input (op : operation) (i : input) : error := {| e_repr := RInput i; e_op := op |}.
Definition error_system (op : operation) (e : sys_error) : error := {| e_repr := RSystem e; e_op := op |}.
Definition error_kernel (op : operation) (code : Z) : error := error_system op (SysKernel code).
Definition last_os_error (op : operation) (errno : Z) : error := error_system op (SysOs errno).

(** src/error.rs:187-193 *)
Definition raw_os_error (e : error) : option Z :=
  match e_repr e with
  | RIo err => io_raw_os err
  | RInput _ => None
  | RSystem err => sys_raw_os err
  end.

(** src/error.rs:212-218 *)
Definition error_kind (e : error) : io_kind :=
  match e_repr e with
  | RIo err => io_kind_of err
  | RInput _ => InvalidInput
  | RSystem err => sys_kind err
  end.

(** src/error.rs:236-238 *)
Definition error_operation (e : error) : operation := e_op e.

(** src/error.rs:241-249: [Error::source]: the wrapped io error, if any *)
Definition error_source (e : error) : option io_error :=
  match e_repr e with
  | RIo err => Some err
  | RInput _ => None
  | RSystem _ => None
  end.

(** src/error.rs:251-258 *)
Definition from_io (err : io_error) : error := {| e_repr := RIo err; e_op := OpNone |}.

(** src/error.rs:437-441 *)
Definition input_as_str (i : input) : string :=
  match i with InvalidRange => "invalid range" end.

(** src/error.rs:260-268 *)
Definition into_io (e : error) : io_error :=
  match e_repr e with
  | RIo io => io
  | RInput v => IoCustom InvalidInput (input_as_str v)
  | RSystem sys => sys_into_io sys
  end.

(** src/error.rs:19-28: the error of a failed conversion, the map dropped *)
Definition from_convert {F} (v : error * F) : error := fst v.

(** src/error.rs:374-396 *)
Definition op_as_str (op : operation) : option string :=
  match op with
  | MapFile => Some "map file"
  | MapFileHandle => Some "map file handle"
  | MapFileView => Some "map file view"
  | MapAnonymous => Some "map anonymous"
  | MapAnonymousHandle => Some "map anonymous handle"
  | MapAnonymousView => Some "map anonymous view"
  | Unmap => Some "unmap"
  | OpProtect => Some "protect mapped memory"
  | OpAdvise => Some "advise mapped memory"
  | OpLock => Some "lock mapped memory"
  | OpUnlock => Some "unlock mapped memory"
  | OpFlush => Some "flush mapped memory"
  | RingAllocate => Some "allocate full ring"
  | RingDeallocate => Some "deallocate full ring"
  | RingEntry => Some "make ring memory entry"
  | RingPrimary => Some "map ring first half"
  | RingSecondary => Some "map ring second half"
  | MemoryFd => Some "open memory fd"
  | OpNone => None
  end.

(** src/error.rs:399-403 *)
Definition op_display (op : operation) : string :=
  match op_as_str op with Some s => s | None => "" end.

(** src/error.rs:285-298.  [disp_io]/[disp_sys] are the texts std and
    system_error print for the wrapped errors. *)
Definition error_display (disp_io : io_error -> string) (disp_sys : sys_error -> string)
    (e : error) : string :=
  let value := match e_repr e with
               | RIo err => disp_io err
               | RInput i => input_as_str i
               | RSystem err => disp_sys err
               end in
  match op_as_str (e_op e) with
  | Some op => "failed to " ++ op ++ ", " ++ value
  | None => value
  end.
