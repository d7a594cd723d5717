(** Where the programs of BufProgModel.v run, and what is to come out. *)
From Coq Require Import Permutation.
From Verif Require Import Base ErrorModel RingSpec RingModel BufSpec BufModel OsModel MapModel ApiModel RingMapModel MemRingModel ProcModel ProcSpec
  MachModel MachProcModel MachProcSpec WinModel WinMapModel WinProcModel WinProcSpec BufProgModel.

(** ** Ring number [k] of a process.  The rest of the program may make every
    call on maps, files and other rings, other processes may act (these acts
    are among the calls on maps, OthersModel.v), but only the reader or writer
    uses its ring: the field is private (src/io/buffer.rs:33-37, 223-227) and
    the mutable borrow ends with the call. *)
Definition ring_len (t : target) (h : option ProcModel.held) (w : bool) : option (out io_error Z) :=
  match h with
  | Some (HRing s) => Some (if w then kring_write_len t s else kring_read_len t s)
  | _ => None
  end.

(** POSIX (ProcModel.v) *)
Definition p_other (t : target) (k : Z) (c : pcall) : Prop := pcall_ok t c /\ ring_subject c <> Some k.
Definition p_own (t : target) (plat : platform) (k : Z) (o : rop) (p : proc) : option (out io_error rout) * proc :=
  let '(x, p') := pstep t plat (PCall k o) p in (match x with ProcModel.ARing r => Some r | _ => None end, p').
Definition p_exec (t : target) (plat : platform) (k : Z) {A} : proc -> code A -> option A -> proc -> Prop :=
  exec proc pcall (p_other t k) (fun c p => snd (pstep t plat c p)) (p_own t plat k) (fun w p => ring_len t (pc_ring p k) w).

(** macOS and iOS (MachProcModel.v) *)
Definition m_other (t : target) (k : Z) (c : pcall) : Prop := mcall_ok t c /\ ring_subject c <> Some k.
Definition m_own (t : target) (k : Z) (o : rop) (p : mproc) : option (out io_error rout) * mproc :=
  let '(x, p') := mstep t (PCall k o) p in (match x with ProcModel.ARing r => Some r | _ => None end, p').
Definition m_exec (t : target) (k : Z) {A} : mproc -> code A -> option A -> mproc -> Prop :=
  exec mproc pcall (m_other t k) (fun c p => snd (mstep t c p)) (m_own t k) (fun w p => ring_len t (pc_ring (mp_p p) k) w).

(** Windows (WinProcModel.v) *)
Definition w_other (t : target) (k : Z) (c : wpcall) : Prop := wpcall_ok t c /\ wp_subject c <> Some k.
Definition w_own (t : target) (k : Z) (o : rop) (p : wproc) : option (out io_error rout) * wproc :=
  let '(x, p') := wpstep t (WCall k o) p in (match x with WAns r => Some r | _ => None end, p').
Definition w_exec (t : target) (k : Z) {A} : wproc -> code A -> option A -> wproc -> Prop :=
  exec wproc wpcall (w_other t k) (fun c p => snd (wpstep t c p)) (w_own t k) (fun w p => ring_len t (wp_ring p k) w).

(** ** What comes out.  [seen]: the answer of the ring to a look at all it
    holds, at the end. *)

(** A reader over the bytes [src]: no ring call failed; the bytes that left,
    the bytes still in the ring and the bytes still unread are [src], in this
    order; and all of it is what the model of the object alone says. *)
Definition reader_outcome (t : target) (cap : Z) (src : bytes) (script : list ranswer) (os : list brop)
    (res : option (Z * rsource * bytes * list (out io_error unit))) (seen : option (out io_error rout)) : Prop :=
  exists lw s ds rs buffered, res = Some (lw, s, ds, rs) /\ seen = Some (Ret (OBytes buffered)) /\
    ds ++ buffered ++ rs_src s = src /\ zlen buffered <= cap /\ Forall (fun r => r <> Fault) rs /\
    exists b, br_run t (br_new {| rs_src := src; rs_script := script; rs_asked := [] |} cap (fun _ => 0)) os = (b, ds, rs) /\
      br_src b = s /\ br_lowat b = lw.

(** A writer with an inner writer that has nothing yet, used and then dropped:
    no ring call failed; the bytes reported as written are those the inner
    writer took and those still in the ring, none lost, none added, none twice;
    and all of it is what the model of the object alone says. *)
Definition writer_outcome (t : target) (cap : Z) (script : list wanswer) (os : list bwop)
    (res : option (wsink * bytes * list (out io_error unit))) (seen : option (out io_error rout)) : Prop :=
  exists s ds rs lost, res = Some (s, ds, rs) /\ seen = Some (Ret (OBytes lost)) /\
    Permutation ds (accepted s ++ lost) /\ zlen lost <= cap /\ Forall (fun r => r <> Fault) rs /\
    exists b rs0 r, bw_run t (bw_from_parts {| ws_log := []; ws_script := script; ws_calls := [] |} (ring_make cap (fun _ => 0))) os = (b, ds, rs0) /\
      bw_drop t b = (s, r) /\ rs = rs0 ++ [r].
