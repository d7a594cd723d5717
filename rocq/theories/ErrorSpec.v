(** Specification side of the error properties (C53, C54); uses only the types
    of ErrorModel. *)
From Coq Require Import String Ascii.
From Verif Require Import Base ErrorModel.
Open Scope string_scope.

(** Words the message of an operation must contain, taken from the
    documentation of the variants of [Operation] (src/error.rs:310-355). *)
Definition op_words (op : operation) : list string :=
  match op with
  | MapFile => ["map"; "file"]
  | MapFileHandle => ["map"; "file"; "handle"]
  | MapFileView => ["map"; "file"; "view"]
  | MapAnonymous => ["anonymous"; "map"]
  | MapAnonymousHandle => ["anonymous"; "map"; "handle"]
  | MapAnonymousView => ["anonymous"; "map"; "view"]
  | Unmap => ["unmap"]
  | OpProtect => ["protect"; "memory"]
  | OpAdvise => ["advise"; "memory"]
  | OpLock => [" lock"; "memory"]
  | OpUnlock => ["unlock"; "memory"]
  | OpFlush => ["flush"]
  | RingAllocate => [" allocate"; "full"; "ring"]
  | RingDeallocate => ["deallocate"; "full"; "ring"]
  | RingEntry => ["entry"; "ring"]
  | RingPrimary => ["first half"; "ring"]
  | RingSecondary => ["second half"; "ring"]
  | MemoryFd => ["memory"; "fd"; "open"]
  | OpNone => []
  end.

Definition contains (s w : string) : Prop := exists a b, s = a ++ w ++ b.

(** How an error value can come into being: the public constructors and the
    conversion from [std::io::Error]. *)
Inductive built : error -> operation -> option io_error -> io_kind -> option Z -> Prop :=
| B_io op x : built (error_io op x) op (Some x) (io_kind_of x) (io_raw_os x)
| B_input op i : built (error_input op i) op None InvalidInput None
| B_system op code : built (error_system op (SysOs code)) op None (decode_kind code) (Some code)
| B_kernel op code : built (error_kernel op code) op None (OtherKind (-1)) None
| B_last op code : built (last_os_error op code) op None (decode_kind code) (Some code)
| B_from x : built (from_io x) OpNone (Some x) (io_kind_of x) (io_raw_os x).
