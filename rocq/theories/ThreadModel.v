(** Calls in progress (POSIX): several threads of one program, and other
    processes, between the system calls of one call.

    The calls that make several system calls are those that create something:
    [open_if], [map_if] (src/map.rs:1067-1070, 1108-1111, 1182-1215) and the
    ring allocation (src/os/unix/posix/mod.rs:22-102,
    src/os/unix/posix/memfd.rs).  A call in progress is its next system call
    and the values of its local variables ([pending]); [advance] makes that
    system call and whatever computation follows up to the next one.  Every
    other call makes at most one system call, or accesses memory, and is one
    step as in ProcModel.v.  The acts of other processes are steps too
    ([COther], OthersModel.v).

    [Map], [MapMut], [Ring] and [InfiniteRing] hold raw pointers, so they are
    neither [Send] nor [Sync]: a thread uses only what it made.  The model
    allows any thread to use anything (one at a time), and has one table of
    descriptors, one address space and one stream of kernel answers for all.

    Simplification: a step happens as a whole; a load or store is not
    interleaved with another one (two threads cannot hold the same map), and
    a copy of many bytes is one step.  That the stages, run without
    interruption, are the calls of MapModel.v and RingMapModel.v is
    [C91_uninterrupted]. *)
From Verif Require Import Base ErrorModel SizeModel OsModel OthersModel MapModel ApiModel RingMapModel RingSpec MemRingModel ProcModel.

(** [mut]: a [MapMut] is made; [own]: the file was opened by this call
    ([open_if]), which closes it when it fails; [inf]: an [InfiniteRing]. *)
Inductive pending :=
| MOpen (mut : bool) (o : options) (path : Z)                    (* File open *)
| MStat (mut own : bool) (o : options) (fd : Z)                  (* f.metadata()?.len() *)
| MCut (mut own : bool) (o : options) (fd flen : Z)              (* truncate *)
| MSize (mut own : bool) (o : options) (fd flen : Z)             (* resize *)
| MMap (mut own : bool) (o : options) (fd flen : Z)              (* mmap *)
| MClose (fd : Z) (r : out error seen)                           (* drop(f) on an error *)
| ROpen (inf : bool) (len : Z) (clock : nat -> Z) (round : nat) (pb : bytes)   (* memfd_create, shm_open *)
| RUnlink (inf : bool) (len fd path : Z)                         (* shm_unlink *)
| RSize (inf : bool) (len fd : Z)                                (* ftruncate *)
| RReserve (inf : bool) (len fd : Z)                             (* mmap of 2*len bytes *)
| RFirst (inf : bool) (len fd pg : Z)                            (* mmap of the first half *)
| RSecond (inf : bool) (len fd pg : Z)                           (* mmap of the second half *)
| RUndo (len fd pg : Z) (e : error)                              (* munmap after a failure *)
| RClose (inf : bool) (len fd : Z) (r : out error Z).            (* close *)

Inductive tresult :=
| TCall (x : presult)            (* a call made as one step *)
| TMap (r : out error seen)      (* the end of [map_if] or [open_if] *)
| TRing (r : out error Z)        (* the end of [Ring::new], [InfiniteRing::new] *)
| TNone.                         (* nothing is reported: in progress, or no such call *)

Inductive outcome :=
| More (pd : pending)
| MadeMap (mut own : bool) (o : options) (fd : Z) (m : mapping)
| MadeRing (inf : bool) (pg len : Z)
| Over (r : tresult).

Record tsys := { ts_p : proc; ts_pool : Z -> option pending }.

Inductive event :=
| ECall (c : pcall)                                              (* a call that is one step *)
| EOpen (tid : Z) (mut : bool) (o : options) (path : Z)          (* the four calls with stages begin *)
| EMap (tid : Z) (mut : bool) (o : options) (fd : Z)
| ERing (tid : Z) (inf : bool) (hint : Z) (clock : nat -> Z)
| EGo (tid : Z).                                                 (* the next system call of [tid] *)

(** The failure of a computation, as another type. *)
Definition failure {A B} (r : out error A) : out error B :=
  match r with Ret _ => Blocked | Err e => Err e | Panic => Panic | Fault => Fault | Blocked => Blocked end.

Section Threads.
  Variable t : target.
  Variable plat : platform.

  (** [?] in [map_if]; [open_if] also drops the file *)
  Definition map_fail {A} (own : bool) (fd : Z) (r : out error A) : outcome :=
    if own then More (MClose fd (failure r)) else Over (TMap (failure r)).

  Definition then_ {A} (fail : out error A -> outcome) (x : out error A * world) (next : A -> outcome) : outcome * world :=
    match x with
    | (Ret a, w) => (next a, w)
    | (r, w) => (fail r, w)
    end.

  (** src/map.rs:1186, 1192-1197 *)
  Definition size_part (o : options) (fd flen : Z) : ST error Z :=
    match op_resize o with
    | ExtExact sz => resize_to t fd sz
    | ExtMin sz => if flen <? sz then resize_to t fd sz else sret flen
    | ExtMax sz => if sz <? flen then resize_to t fd sz else sret flen
    | ExtEnd => sret flen
    end.

  (** src/map.rs:1199-1214 *)
  Definition map_part (o : options) (fd flen : Z) : ST error (option mapping) :=
    let off := op_offset o in
    if flen <? off then sret None
    else
      do* max <- sout (usub t flen off);
      match extent_len (op_len o) max with
      | None => sret None
      | Some len =>
        do* mapoff <- sout (size_truncate t (size_alloc t) off);
        do* d <- sout (usub t off mapoff);
        do* maplen <- sout (uadd t len d);
        do* ptr <- os_map_file t fd mapoff maplen (op_protect o);
        sret (Some {| m_ptr := ptr_add t ptr d; m_len := len |})
      end.

  (** One stage.  posix/mod.rs:22-102 and memfd.rs for the ring stages. *)
  Definition advance (pd : pending) (w : world) : outcome * world :=
    match pd with
    | MOpen mut o path =>
      then_ (fun r => Over (TMap (failure r))) (io_call (file_open t (op_open o) path) w) (fun fd => More (MStat mut true o fd))
    | MStat mut own o fd =>
      then_ (map_fail own fd) ((do* l <- io_call (file_len fd); sret (as_usize t l)) w) (fun flen => More (MCut mut own o fd flen))
    | MCut mut own o fd flen =>
      then_ (map_fail own fd) ((if op_truncate o && (0 <? flen) then resize_to t fd 0 else sret flen) w)
        (fun flen => More (MSize mut own o fd flen))
    | MSize mut own o fd flen =>
      then_ (map_fail own fd) (size_part o fd flen w) (fun flen => More (MMap mut own o fd flen))
    | MMap mut own o fd flen =>
      then_ (map_fail own fd) (map_part o fd flen w)
        (fun m => match m with
                  | Some m => MadeMap mut own o fd m
                  | None => Over (TMap (Ret (if own then SFile None fd else SNone)))
                  end)
    | MClose fd r => (Over (TMap r), snd (sys_close fd w))
    | ROpen inf len clock round pb =>
      match plat with
      | Anonymous =>
        then_ (fun r => Over (TRing (failure r))) (os_call MemoryFd sys_memfd w) (fun fd => More (RSize inf len fd))
      | Named =>
        match shm_name (clock round) pb with
        | Ret (name, pb) =>
          match sys_open t (shm_path name) true true true false w with
          | (Ret fd, w') => (More (RUnlink inf len fd (shm_path name)), w')
          | (Err e, w') =>
            let err := last_os_error MemoryFd e in
            match raw_os_error err with
            | Some c => if c =? EEXIST then (More (ROpen inf len clock (S round) pb), w') else (Over (TRing (Err err)), w')
            | None => (Over (TRing (Err err)), w')
            end
          | (_, w') => (Over (TRing Blocked), w')
          end
        | _ => (Over (TRing Panic), w)
        end
      end
    | RUnlink inf len fd path => (More (RSize inf len fd), snd (sys_shm_unlink path w))
    | RSize inf len fd =>
      match sys_ftruncate t fd (as_signed t len) w with
      | (Ret _, w') => (More (RReserve inf len fd), w')
      | (Err e, w') => (More (RClose inf len fd (Err (last_os_error MemoryFd e))), w')
      | (_, w') => (Over (TRing Blocked), w')
      end
    | RReserve inf len fd =>
      match umul (E:=error) t len 2 with
      | Ret full =>
        then_ (fun r => More (RClose inf len fd (failure r)))
          (ring_mmap t RingAllocate false 0 full false true (-1) w) (fun pg => More (RFirst inf len fd pg))
      | r => (Over (TRing (failure r)), w)
      end
    | RFirst inf len fd pg =>
      match ring_mmap t RingPrimary true pg len true false fd w with
      | (Ret _, w') => (More (RSecond inf len fd pg), w')
      | (Err e, w') => (More (RUndo len fd pg e), w')
      | (r, w') => (Over (TRing (failure r)), w')
      end
    | RSecond inf len fd pg =>
      match ring_mmap t RingSecondary true (ptr_add t pg len) len true false fd w with
      | (Ret _, w') => (More (RClose inf len fd (Ret pg)), w')
      | (Err e, w') => (More (RUndo len fd pg e), w')
      | (r, w') => (Over (TRing (failure r)), w')
      end
    | RUndo len fd pg e =>
      match ignore (unmap_ring t pg len) w with
      | (Ret _, w') => (More (RClose false len fd (Err e)), w')
      | (r, w') => (Over (TRing (failure r)), w')
      end
    | RClose inf len fd r =>
      match r with
      | Ret pg => (MadeRing inf pg len, snd (sys_close fd w))
      | r => (Over (TRing r), snd (sys_close fd w))
      end
    end.

  Definition set_pool (s : tsys) (p : proc) (tid : Z) (x : option pending) : tsys :=
    {| ts_p := p; ts_pool := put (ts_pool s) tid x |}.

  Definition new_held (inf : bool) (pg len : Z) : held :=
    if inf then HInf (kiring_new pg len) else HRing (kring_new pg len).

  (** The next system call of a thread; what was made is handed over with the
      last one. *)
  Definition go (tid : Z) (pd : pending) (s : tsys) : tresult * tsys :=
    let p := ts_p s in
    match advance pd (pc_w p) with
    | (More pd, w) => (TNone, set_pool s (pc_set_w p w) tid (Some pd))
    | (MadeMap mut own o fd m, w) =>
      let k := a_cnt (pc_a p) in
      (TMap (Ret (if own then SFile (Some k) fd else SMap k)),
       set_pool s {| pc_a := add_live (pc_a p) w (file_live mut o w fd m); pc_ring := pc_ring p; pc_cnt := pc_cnt p |} tid None)
    | (MadeRing inf pg len, w) =>
      (TRing (Ret (pc_cnt p)),
       set_pool s {| pc_a := set_w (pc_a p) w; pc_ring := put (pc_ring p) (pc_cnt p) (Some (new_held inf pg len)); pc_cnt := pc_cnt p + 1 |} tid None)
    | (Over r, w) => (r, set_pool s (pc_set_w p w) tid None)
    end.

  (** A thread that is in the middle of a call does not begin another one. *)
  Definition begin (tid : Z) (s : tsys) (f : tresult * tsys) : tresult * tsys :=
    match ts_pool s tid with Some _ => (TNone, s) | None => f end.

  Definition tstep (e : event) (s : tsys) : tresult * tsys :=
    match e with
    | ECall c => let '(x, p) := pstep t plat c (ts_p s) in (TCall x, {| ts_p := p; ts_pool := ts_pool s |})
    | EOpen tid mut o path => begin tid s (TNone, set_pool s (ts_p s) tid (Some (MOpen mut o path)))
    | EMap tid mut o fd => begin tid s (TNone, set_pool s (ts_p s) tid (Some (MStat mut false o fd)))
    | ERing tid inf hint clock => begin tid s
        (* src/io/ring.rs:73, 234 *)
        match size_round (E:=error) t (size_alloc t) hint with
        | Ret len => (TNone, set_pool s (ts_p s) tid (Some (ROpen inf len clock 0 shm_template)))
        | r => (TRing (failure r), s)
        end
    | EGo tid => match ts_pool s tid with Some pd => go tid pd s | None => (TNone, s) end
    end.

  Fixpoint trun (h : list event) (s : tsys) : list tresult * tsys :=
    match h with
    | [] => ([], s)
    | e :: h => let '(x, s1) := tstep e s in let '(xs, s2) := trun h s1 in (x :: xs, s2)
    end.

  (** The thread runs on without interruption until its call is over. *)
  Fixpoint finish (fuel : nat) (tid : Z) (s : tsys) : tresult * tsys :=
    match fuel with
    | O => (TNone, s)
    | S fuel =>
      let '(r, s1) := tstep (EGo tid) s in
      match ts_pool s1 tid with Some _ => finish fuel tid s1 | None => (r, s1) end
    end.
End Threads.

Definition idle (w : world) : tsys := {| ts_p := fresh w; ts_pool := fun _ => None |}.
