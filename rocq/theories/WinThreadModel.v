(** Calls in progress (Windows): several threads of one program between the
    system calls of one call.

    The calls that make several system calls are those that create something
    ([open_if], [map_if], src/map.rs:1067-1070, 1108-1111, 1182-1215; [alloc],
    src/map.rs:1230-1240; the ring allocation, src/os/windows.rs:131-178) and
    the drop of a ring (src/os/windows.rs:211-218).  A call in progress is its
    next system call and the values of its local variables ([wpend]);
    [wadvance] makes that system call and whatever computation follows up to
    the next one.  Every other call is one step as in WinProcModel.v.

    The placement of a ring is a race by design: the address range is reserved
    (VirtualAlloc), released (VirtualFree) and then mapped twice
    (MapViewOfFileEx), up to six times (src/os/windows.rs:169-177).  Here other
    threads can do anything between these calls.

    Like on POSIX (ThreadModel.v) any thread may use anything (one at a time),
    and there are one table of handles, one address space and one stream of
    kernel answers for all.

    Simplifications: a step happens as a whole; a flush ([FlushViewOfFile], then
    [FlushFileBuffers]) is one step.  The last error is a field of the thread
    on Windows; it is read right after the failing call (in the same step), or
    its value is thrown away ([win_unmap] in a drop), so that one field for all
    ([n_last]) does.  That the stages, run without interruption, are the calls
    of WinModel.v and WinMapModel.v is [C97_uninterrupted]. *)
From Verif Require Import Base ErrorModel SizeModel OsModel MapModel RingMapModel RingSpec MemRingModel ProcModel WinModel WinMapModel WinProcModel.

(** [mut]: a [MapMut] is made; [own]: the file was opened by this call
    ([open_if]), which closes it when it fails; [inf]: an [InfiniteRing]; [h]:
    the handle of the section; [ob]: its object (for the specification only);
    [more]: placements that may still be tried after this one. *)
Inductive wpend :=
| VOpen (mut : bool) (o : options) (path : Z)                          (* File open *)
| VStat (mut own : bool) (o : options) (fd : Z)                        (* f.metadata()?.len() *)
| VCut (mut own : bool) (o : options) (fd flen : Z)                    (* truncate *)
| VSize (mut own : bool) (o : options) (fd flen : Z)                   (* resize *)
| VCreate (mut own : bool) (o : options) (fd flen : Z)                 (* CreateFileMapping *)
| VView (mut own : bool) (o : options) (fd h ob mapoff d len : Z)      (* MapViewOfFileEx *)
| VDone (mut own : bool) (o : options) (fd h ob d len : Z) (r : out error Z) (* CloseHandle *)
| VClose (fd : Z) (r : out error got)                                  (* drop(f) on an error *)
| NCreate (mut : bool) (o : options) (off len total : Z)               (* CreateFileMapping *)
| NView (mut : bool) (o : options) (h ob off len total : Z)            (* MapViewOfFileEx *)
| NDone (mut : bool) (o : options) (h ob off len : Z) (r : out error Z) (* CloseHandle *)
| KCreate (inf : bool) (len full : Z)                                  (* CreateFileMapping *)
| KReserve (inf : bool) (len full h ob : Z) (more : nat)               (* VirtualAlloc *)
| KRelease (inf : bool) (len full h ob : Z) (more : nat) (pg : Z)      (* VirtualFree *)
| KFirst (inf : bool) (len full h ob : Z) (more : nat) (pg : Z)        (* MapViewOfFileEx *)
| KSecond (inf : bool) (len full h ob : Z) (more : nat) (pg : Z)       (* MapViewOfFileEx *)
| KUndo (inf : bool) (len full h ob : Z) (more : nat) (pg : Z) (e : error) (* UnmapViewOfFile *)
| KDone (inf : bool) (len h ob : Z) (r : out error Z)                  (* CloseHandle *)
| DSecond (r : ring_alloc) (ob : Z)                                    (* UnmapViewOfFile *)
| DFirst (r : ring_alloc) (ob : Z).                                    (* UnmapViewOfFile *)

Inductive wtresult :=
| WTCall (x : wpresult)          (* a call made as one step *)
| WTMap (r : out error got)      (* the end of [map_if], [open_if], [alloc] *)
| WTRing (r : out error Z)       (* the end of [Ring::new], [InfiniteRing::new] *)
| WTDrop (r : out error unit)    (* the end of the drop of a ring *)
| WTNone.                        (* nothing is reported: in progress, or no such call *)

Inductive woutcome :=
| WMore (pd : wpend)
| WMadeFile (mut own : bool) (o : options) (fd ob : Z) (m : mapping)
| WMadeAnon (mut : bool) (o : options) (ob : Z) (m : mapping)
| WMadeRing (inf : bool) (ob pg len : Z)
| WOver (r : wtresult).

Record wtsys := { wt_p : wproc; wt_pool : Z -> option wpend }.

Inductive wevent :=
| WECall (c : wpcall)                                              (* a call that is one step *)
| WEOpen (tid : Z) (mut : bool) (o : options) (path : Z)           (* the calls with stages begin *)
| WEMap (tid : Z) (mut : bool) (o : options) (fd : Z)
| WEAlloc (tid : Z) (mut : bool) (o : options)
| WERing (tid : Z) (inf : bool) (hint : Z)
| WEDrop (tid k : Z)                                               (* of a ring *)
| WEGo (tid : Z).                                                  (* the next system call of [tid] *)

(** The failure of a computation, as another type. *)
Definition wfailure {A B} (r : out error A) : out error B :=
  match r with Ret _ => Blocked | Err e => Err e | Panic => Panic | Fault => Fault | Blocked => Blocked end.

Section Threads.
  Variable t : target.

  Definition wthen {A} (fail : out error A -> woutcome) (x : out error A * win) (next : A -> woutcome) : woutcome * win :=
    match x with
    | (Ret a, s) => (next a, s)
    | (r, s) => (fail r, s)
    end.

  (** [?] in [map_if]; [open_if] also drops the file *)
  Definition vfail {A} (own : bool) (fd : Z) (r : out error A) : woutcome :=
    if own then WMore (VClose fd (wfailure r)) else WOver (WTMap (wfailure r)).
  (** src/map.rs:1192-1197 *)
  Definition vsize (o : options) (fd flen : Z) : ST error Z :=
    match op_resize o with
    | ExtExact sz => resize_to t fd sz
    | ExtMin sz => if flen <? sz then resize_to t fd sz else sret flen
    | ExtMax sz => if sz <? flen then resize_to t fd sz else sret flen
    | ExtEnd => sret flen
    end.
  (** src/map.rs:1199-1211: the offset and the length of the view, the distance
      of the map from its start, the length of the map *)
  Definition vplan (o : options) (flen : Z) : out error (option (Z * Z * Z * Z)) :=
    let off := op_offset o in
    if flen <? off then Ret None
    else
      let* max := usub t flen off in
      match extent_len (op_len o) max with
      | None => Ret None
      | Some len =>
        let* mapoff := size_truncate t (size_alloc t) off in
        let* d := usub t off mapoff in
        let* maplen := uadd t len d in
        Ret (Some (mapoff, maplen, d, len))
      end.
  (** src/map.rs:1231-1238: the offset into the view, the length of the map,
      that of the view *)
  Definition nplan (o : options) : out error (Z * Z * Z) :=
    let* off := size_offset t (size_page t) (op_offset o) in
    let* len := match op_len o with
                | ExtEnd => let* a := uadd t off 1 in let* r := size_round t (size_alloc t) a in usub t r off
                | ExtMin l => let* a := uadd t off l in let* r := size_round t (size_alloc t) a in usub t r off
                | ExtMax l => Ret l
                | ExtExact l => Ret l
                end in
    let* total := uadd t off len in
    Ret (off, len, total).

  (** the end of one placement, windows.rs:169-177 *)
  Definition kretry (inf : bool) (len full h ob : Z) (more : nat) (e : error) : woutcome :=
    match more with
    | O => WMore (KDone inf len h ob (Err e))
    | S more => WMore (KReserve inf len full h ob more)
    end.

  (** One stage. *)
  Definition wadvance (pd : wpend) (s : win) : woutcome * win :=
    match pd with
    | VOpen mut o path =>
      wthen (fun r => WOver (WTMap (wfailure r))) (lift (io_call (file_open t (op_open o) path)) s) (fun fd => WMore (VStat mut true o fd))
    | VStat mut own o fd =>
      wthen (vfail own fd) (lift (do* l <- io_call (file_len fd); sret (as_usize t l)) s) (fun flen => WMore (VCut mut own o fd flen))
    | VCut mut own o fd flen =>
      wthen (vfail own fd) (lift (if op_truncate o && (0 <? flen) then resize_to t fd 0 else sret flen) s)
        (fun flen => WMore (VSize mut own o fd flen))
    | VSize mut own o fd flen =>
      wthen (vfail own fd) (lift (vsize o fd flen) s) (fun flen => WMore (VCreate mut own o fd flen))
    | VCreate mut own o fd flen =>
      match vplan o flen with
      | Ret None => (WOver (WTMap (Ret (if own then GFile None fd else GNone))), s)
      | Ret (Some (mapoff, maplen, d, len)) =>
        wthen (vfail own fd) (handle_new t MapFileHandle (Some fd) (fst (protect_pair (op_protect o))) 0 s)
          (fun h => WMore (VView mut own o fd h (fd_objw (n_w s) fd) mapoff d len))
      | r => (vfail own fd r, s)
      end
    | VView mut own o fd h ob mapoff d len =>
      match uadd (E:=error) t len d with
      | Ret maplen =>
        let '(r, s') := handle_view t h MapFileView (snd (protect_pair (op_protect o))) mapoff maplen 0 s in
        (WMore (VDone mut own o fd h ob d len r), s')
      | r => (vfail own fd r, s)
      end
    | VDone mut own o fd h ob d len r =>
      (match r with
       | Ret ptr => WMadeFile mut own o fd ob {| m_ptr := ptr_add t ptr d; m_len := len |}
       | r => vfail own fd r
       end, snd (close_handle h s))
    | VClose fd r => (WOver (WTMap r), with_w s (snd (sys_close fd (n_w s))))
    | NCreate mut o off len total =>
      wthen (fun r => WOver (WTMap (wfailure r))) (handle_new t MapAnonymousHandle None (fst (protect_pair (op_protect o))) total s)
        (fun h => WMore (NView mut o h (w_next (n_w s)) off len total))
    | NView mut o h ob off len total =>
      let '(r, s') := handle_view t h MapAnonymousView (snd (protect_pair (op_protect o))) 0 total 0 s in
      (WMore (NDone mut o h ob off len r), s')
    | NDone mut o h ob off len r =>
      (match r with
       | Ret ptr => WMadeAnon mut o ob {| m_ptr := ptr_add t ptr off; m_len := len |}
       | r => WOver (WTMap (wfailure r))
       end, snd (close_handle h s))
    | KCreate inf len full =>
      wthen (fun r => WOver (WTRing (wfailure r))) (handle_new t RingAllocate None PageReadWrite full s)
        (fun h => WMore (KReserve inf len full h (w_next (n_w s)) 5))
    | KReserve inf len full h ob more =>
      wthen (fun r => WMore (KDone inf len h ob (wfailure r))) (win_call RingAllocate (virtual_alloc t full) s)
        (fun pg => WMore (KRelease inf len full h ob more pg))
    | KRelease inf len full h ob more pg =>
      wthen (fun r => WMore (KDone inf len h ob (wfailure r))) (no_result (virtual_free t pg) s)
        (fun _ => WMore (KFirst inf len full h ob more pg))
    | KFirst inf len full h ob more pg =>
      match handle_view t h RingPrimary MapReadWrite 0 len pg s with
      | (Ret a, s') => (WMore (KSecond inf len full h ob more a), s')
      | (Err e, s') => (kretry inf len full h ob more e, s')
      | (r, s') => (WMore (KDone inf len h ob (wfailure r)), s')
      end
    | KSecond inf len full h ob more pg =>
      match handle_view t h RingSecondary MapReadWrite 0 len (ptr_add t pg len) s with
      | (Ret _, s') => (WMore (KDone inf len h ob (Ret pg)), s')
      | (Err e, s') => (WMore (KUndo inf len full h ob more pg e), s')
      | (r, s') => (WMore (KDone inf len h ob (wfailure r)), s')
      end
    | KUndo inf len full h ob more pg e =>
      match no_result (unmap_view t pg) s with
      | (Ret _, s') => (kretry inf len full h ob more e, s')
      | (r, s') => (WMore (KDone inf len h ob (wfailure r)), s')
      end
    | KDone inf len h ob r =>
      (match r with
       | Ret pg => WMadeRing inf ob pg len
       | r => WOver (WTRing (wfailure r))
       end, snd (close_handle h s))
    | DSecond r ob =>
      match win_call RingDeallocate (unmap_view t (ptr_add t (ra_ptr r) (ra_len r))) s with
      | (Ret _, s') => (WMore (DFirst r ob), s')
      | (Err _, s') => (WOver (WTDrop (Ret tt)), s')
      | (x, s') => (WOver (WTDrop (wfailure x)), s')
      end
    | DFirst r ob =>
      match no_result (unmap_view t (ra_ptr r)) s with
      | (Ret _, s') => (WOver (WTDrop (Ret tt)), s')
      | (x, s') => (WOver (WTDrop (wfailure x)), s')
      end
    end.

  Definition wset_pool (s : wtsys) (p : wproc) (tid : Z) (x : option wpend) : wtsys :=
    {| wt_p := p; wt_pool := put (wt_pool s) tid x |}.
  Definition wp_set (p : wproc) (s : win) : wproc := {| wp_g := g_set (wp_g p) s; wp_ring := wp_ring p |}.

  Definition wnew_held (inf : bool) (pg len : Z) : ProcModel.held :=
    if inf then HInf (kiring_new pg len) else HRing (kring_new pg len).

  (** The map made of a file, and of anonymous memory ([held_file],
      [held_anon], WinMapModel.v) with the object known from the section. *)
  Definition made_file (mut : bool) (o : options) (ob : Z) (m : mapping) : thing :=
    TMap {| v_map := m; v_mut := mut; v_obj := ob; v_off := op_offset o; v_prot := op_protect o; v_anon := false; v_w := writable (op_protect o) |}.
  Definition made_anon (mut : bool) (o : options) (ob : Z) (m : mapping) : thing :=
    TMap {| v_map := m; v_mut := mut; v_obj := ob; v_off := op_offset o mod t_page t; v_prot := op_protect o; v_anon := true; v_w := writable (op_protect o) |}.

  (** The next system call of a thread; what was made is handed over with the
      last one. *)
  Definition wgo (tid : Z) (pd : wpend) (s : wtsys) : wtresult * wtsys :=
    let p := wt_p s in
    let g := wp_g p in
    match wadvance pd (g_s g) with
    | (WMore pd, x) => (WTNone, wset_pool s (wp_set p x) tid (Some pd))
    | (WMadeFile mut own o fd ob m, x) =>
      (WTMap (Ret (if own then GFile (Some (g_cnt g)) fd else GThing (g_cnt g))),
       wset_pool s {| wp_g := g_add g x (made_file mut o ob m); wp_ring := wp_ring p |} tid None)
    | (WMadeAnon mut o ob m, x) =>
      (WTMap (Ret (GThing (g_cnt g))), wset_pool s {| wp_g := g_add g x (made_anon mut o ob m); wp_ring := wp_ring p |} tid None)
    | (WMadeRing inf ob pg len, x) =>
      (WTRing (Ret (g_cnt g)),
       wset_pool s {| wp_g := g_add g x (TRing {| ra_ptr := pg; ra_len := len |} ob);
                      wp_ring := put (wp_ring p) (g_cnt g) (Some (wnew_held inf pg len)) |} tid None)
    | (WOver r, x) => (r, wset_pool s (wp_set p x) tid None)
    end.

  (** A thread that is in the middle of a call does not begin another one. *)
  Definition wbegin (tid : Z) (s : wtsys) (f : wtresult * wtsys) : wtresult * wtsys :=
    match wt_pool s tid with Some _ => (WTNone, s) | None => f end.

  Definition wtstep (e : wevent) (s : wtsys) : wtresult * wtsys :=
    let p := wt_p s in
    match e with
    | WECall c => let '(x, p') := wpstep t c p in (WTCall x, {| wt_p := p'; wt_pool := wt_pool s |})
    | WEOpen tid mut o path => wbegin tid s (WTNone, wset_pool s p tid (Some (VOpen mut o path)))
    | WEMap tid mut o fd => wbegin tid s (WTNone, wset_pool s p tid (Some (VStat mut false o fd)))
    | WEAlloc tid mut o => wbegin tid s
        match nplan o with
        | Ret (off, len, total) => (WTNone, wset_pool s p tid (Some (NCreate mut o off len total)))
        | r => (WTMap (wfailure r), s)
        end
    | WERing tid inf hint => wbegin tid s
        (* src/io/ring.rs:73, 234, windows.rs:166 *)
        match (let* len := size_round (E:=error) t (size_alloc t) hint in let* full := umul t 2 len in Ret (len, full)) with
        | Ret (len, full) => (WTNone, wset_pool s p tid (Some (KCreate inf len full)))
        | r => (WTRing (wfailure r), s)
        end
    | WEDrop tid k => wbegin tid s
        match wp_ring p k, g_tab (wp_g p) k with
        | Some h, Some x => (WTNone, wset_pool s {| wp_g := g_put (wp_g p) (g_s (wp_g p)) k None; wp_ring := put (wp_ring p) k None |}
                                       tid (Some (DSecond (h_alloc h) (match x with TRing _ ob => ob | TMap v => v_obj v end))))
        | _, _ => (WTNone, s)
        end
    | WEGo tid => match wt_pool s tid with Some pd => wgo tid pd s | None => (WTNone, s) end
    end.

  Fixpoint wtrun (h : list wevent) (s : wtsys) : list wtresult * wtsys :=
    match h with
    | [] => ([], s)
    | e :: h => let '(x, s1) := wtstep e s in let '(xs, s2) := wtrun h s1 in (x :: xs, s2)
    end.

  (** The thread runs on without interruption until its call is over. *)
  Fixpoint wfinish (fuel : nat) (tid : Z) (s : wtsys) : wtresult * wtsys :=
    match fuel with
    | O => (WTNone, s)
    | S fuel =>
      let '(r, s1) := wtstep (WEGo tid) s in
      match wt_pool s1 tid with Some _ => wfinish fuel tid s1 | None => (r, s1) end
    end.
End Threads.

Definition widle (s : win) : wtsys := {| wt_p := wp_fresh s; wt_pool := fun _ => None |}.
