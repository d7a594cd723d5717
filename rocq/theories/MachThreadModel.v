(** Calls in progress on macOS and iOS: several threads of one program, and
    other processes, between the system calls of one call.

    Maps are made by the POSIX code, with the stages of ThreadModel.v.  A ring
    is allocated by src/os/unix/mach.rs:79-131; a call in progress there is its
    next kernel call and the values of its local variables ([mpending]);
    [madvance] makes that call and whatever computation follows up to the next
    one.  Every other call is one step, as in MachProcModel.v ([mstep]).

    As in ThreadModel.v any thread may use anything (one at a time), and a step
    happens as a whole.  That the stages, run without interruption, are the
    calls of MachProcModel.v is [C103_uninterrupted]. *)
From Verif Require Import Base ErrorModel SizeModel OsModel OthersModel MapModel ApiModel RingMapModel RingSpec MachModel MemRingModel ProcModel
  MachProcModel ThreadModel.

(** [inf]: an [InfiniteRing]; [len]: the length of the ring (ring.rs:73, 234);
    [size]: what mach_make_memory_entry wrote back (mach.rs:98-107). *)
Inductive mpending :=
| AAny (inf : bool) (len : Z)                                    (* vm_allocate anywhere, mach.rs:85-88 *)
| AFixed (inf : bool) (len addr : Z)                             (* vm_allocate of the first half, mach.rs:90-96 *)
| AEntry (inf : bool) (len addr : Z)                             (* mach_make_memory_entry, mach.rs:98-105 *)
| AMap (inf : bool) (len size addr port : Z)                     (* vm_map of the second half, mach.rs:107-128 *)
| AUndo (len addr : Z) (e : error).                              (* vm_deallocate after a failure, mach.rs:92-94, 101-103, 124-126 *)

Inductive moutcome :=
| MMore (pd : mpending)
| MMade (inf : bool) (pg len : Z)
| MOver (r : out error Z).

Record msys := {
  ms_t : tsys;                       (* the program, and the maps being made *)
  ms_ports : Z -> option mem_entry;
  ms_ring : Z -> option mpending     (* the rings being made *)
}.

Section Threads.
  Variable t : target.

  (** mach.rs:79-131, one kernel call at a time *)
  Definition madvance (pd : mpending) (s : mach) : moutcome * mach :=
    match pd with
    | AAny inf len =>
      match umul (E:=error) t 2 len with
      | Ret full =>
        match kern_call RingAllocate (on_world (vm_allocate_anywhere t full)) s with
        | (Ret addr, s') => (MMore (AFixed inf len addr), s')
        | (r, s') => (MOver (failure r), s')
        end
      | r => (MOver (failure r), s)
      end
    | AFixed inf len addr =>
      match kern_call RingPrimary (on_world (vm_allocate_fixed t addr len)) s with
      | (Ret addr, s') => (MMore (AEntry inf len addr), s')
      | (Err e, s') => (MMore (AUndo len addr e), s')
      | (r, s') => (MOver (failure r), s')
      end
    | AEntry inf len addr =>
      match kern_call RingEntry (make_memory_entry t len addr) s with
      | (Ret (size, port), s') => (MMore (AMap inf len size addr port), s')
      | (Err e, s') => (MMore (AUndo len addr e), s')
      | (r, s') => (MOver (failure r), s')
      end
    | AMap inf len size addr port =>
      match uadd (E:=error) t addr size with
      | Ret half =>
        match kern_call RingSecondary (vm_map_fixed t half size port) s with
        | (Ret _, s') => (MMade inf addr len, s')
        | (Err e, s') => (MMore (AUndo size addr e), s')
        | (r, s') => (MOver (failure r), s')
        end
      | r => (MOver (failure r), s)
      end
    | AUndo len addr e =>
      match umul (E:=error) t 2 len with
      | Ret l => (MOver (Err e), snd (on_world (vm_deallocate t addr l) s))
      | _ => (MOver Panic, s)
      end
    end.

  Definition ms_p (s : msys) : proc := ts_p (ms_t s).
  Definition ms_mach (s : msys) : mach := {| mc_w := pc_w (ms_p s); mc_ports := ms_ports s |}.
  Definition ms_set (s : msys) (p : proc) (ports : Z -> option mem_entry) (tid : Z) (x : option mpending) : msys :=
    {| ms_t := {| ts_p := p; ts_pool := ts_pool (ms_t s) |}; ms_ports := ports; ms_ring := put (ms_ring s) tid x |}.

  (** The next kernel call of a thread that makes a ring. *)
  Definition mgo (tid : Z) (pd : mpending) (s : msys) : tresult * msys :=
    let p := ms_p s in
    match madvance pd (ms_mach s) with
    | (MMore pd, m) => (TNone, ms_set s (pc_set_w p (mc_w m)) (mc_ports m) tid (Some pd))
    | (MMade inf pg len, m) =>
      (TRing (Ret (pc_cnt p)),
       ms_set s {| pc_a := set_w (pc_a p) (mc_w m); pc_ring := put (pc_ring p) (pc_cnt p) (Some (new_held inf pg len)); pc_cnt := pc_cnt p + 1 |}
         (mc_ports m) tid None)
    | (MOver r, m) => (TRing r, ms_set s (pc_set_w p (mc_w m)) (mc_ports m) tid None)
    end.

  (** A step of ThreadModel.v: no port is involved. *)
  Definition on_posix (x : tresult * tsys) (s : msys) : tresult * msys :=
    let '(r, t') := x in (r, {| ms_t := t'; ms_ports := ms_ports s; ms_ring := ms_ring s |}).

  (** A thread that is in the middle of a call does not begin another one.
      [clock] is not used: no name is made up on macOS. *)
  Definition mtstep (e : event) (s : msys) : tresult * msys :=
    match e with
    | ECall c =>
      let '(x, m) := mstep t c {| mp_p := ms_p s; mp_ports := ms_ports s |} in
      (TCall x, {| ms_t := {| ts_p := mp_p m; ts_pool := ts_pool (ms_t s) |}; ms_ports := mp_ports m; ms_ring := ms_ring s |})
    | EOpen tid _ _ _ | EMap tid _ _ _ =>
      match ms_ring s tid with Some _ => (TNone, s) | None => on_posix (tstep t Anonymous e (ms_t s)) s end
    | ERing tid inf hint clock =>
      match ms_ring s tid, ts_pool (ms_t s) tid with
      | None, None =>
        (* src/io/ring.rs:73, 234 *)
        match size_round (E:=error) t (size_alloc t) hint with
        | Ret len => (TNone, ms_set s (ms_p s) (ms_ports s) tid (Some (AAny inf len)))
        | r => (TRing (failure r), s)
        end
      | _, _ => (TNone, s)
      end
    | EGo tid =>
      match ms_ring s tid with
      | Some pd => mgo tid pd s
      | None => on_posix (tstep t Anonymous e (ms_t s)) s
      end
    end.

  Fixpoint mtrun (h : list event) (s : msys) : list tresult * msys :=
    match h with
    | [] => ([], s)
    | e :: h => let '(x, s1) := mtstep e s in let '(xs, s2) := mtrun h s1 in (x :: xs, s2)
    end.

  (** Is the thread in the middle of a call? *)
  Definition busy (s : msys) (tid : Z) : bool :=
    match ms_ring s tid, ts_pool (ms_t s) tid with None, None => false | _, _ => true end.

  (** The thread runs on without interruption until its call is over. *)
  Fixpoint mfinish (fuel : nat) (tid : Z) (s : msys) : tresult * msys :=
    match fuel with
    | O => (TNone, s)
    | S fuel =>
      let '(r, s1) := mtstep (EGo tid) s in
      if busy s1 tid then mfinish fuel tid s1 else (r, s1)
    end.
End Threads.

Definition midle (w : world) (ports : Z -> option mem_entry) : msys :=
  {| ms_t := idle w; ms_ports := ports; ms_ring := fun _ => None |}.
