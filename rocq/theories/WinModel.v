(** Model of src/os/windows.rs over the pages and objects of OsModel.v.

    Kernel side (assumed behaviour of the Win32 calls): sections behind
    handles, views and reservations that are released as a whole by their base
    address, addresses aligned to the allocation granularity.  Every call may
    be refused with any code ([w_orc]).  Before every call other threads may
    have taken or given up any pages that are free in this model: [n_env] is
    the list of the page sets they hold, one per call.  Every call is recorded
    in [n_log], newest first, and a failing one sets the thread's last error.

    Simplifications: a file is opened with or without write access, execute
    access is not modelled (a refusal of the kernel stands for it); CloseHandle
    of a valid handle does not fail; a refused call changes nothing. *)
From Verif Require Import Base ErrorModel SizeModel OsModel MapModel RingMapModel.

(** A section: object, usable size, whether shared writable views are
    allowed. *)
Record section := { sc_obj : Z; sc_size : Z; sc_w : bool }.

Inductive wcall :=
| WCreate | WClose (h : Z) | WReserve | WRelease (a : Z) | WMap (a : Z) | WUnmap (a : Z)
| WProtect (a : Z) | WFlushView (a : Z) | WFlushFile (fd : Z) | WLock (a : Z) | WUnlock (a : Z).

Record win := {
  n_w : world;
  n_sec : Z -> option section;     (* open section handles *)
  n_view : Z -> option Z;          (* base address of a view -> pages *)
  n_resv : Z -> option Z;          (* base address of a reservation -> pages *)
  n_cache : Z -> Z -> byte;        (* bytes handed to the file system, by object *)
  n_env : list (Z -> bool);
  n_log : list (wcall * bool);
  n_last : Z
}.
Definition with_w (s : win) w := {| n_w := w; n_sec := n_sec s; n_view := n_view s; n_resv := n_resv s; n_cache := n_cache s; n_env := n_env s; n_log := n_log s; n_last := n_last s |}.
Definition with_sec (s : win) x := {| n_w := n_w s; n_sec := x; n_view := n_view s; n_resv := n_resv s; n_cache := n_cache s; n_env := n_env s; n_log := n_log s; n_last := n_last s |}.
Definition with_view (s : win) x := {| n_w := n_w s; n_sec := n_sec s; n_view := x; n_resv := n_resv s; n_cache := n_cache s; n_env := n_env s; n_log := n_log s; n_last := n_last s |}.
Definition with_resv (s : win) x := {| n_w := n_w s; n_sec := n_sec s; n_view := n_view s; n_resv := x; n_cache := n_cache s; n_env := n_env s; n_log := n_log s; n_last := n_last s |}.
Definition with_cache (s : win) x := {| n_w := n_w s; n_sec := n_sec s; n_view := n_view s; n_resv := n_resv s; n_cache := x; n_env := n_env s; n_log := n_log s; n_last := n_last s |}.
Definition with_env (s : win) x := {| n_w := n_w s; n_sec := n_sec s; n_view := n_view s; n_resv := n_resv s; n_cache := n_cache s; n_env := x; n_log := n_log s; n_last := n_last s |}.
Definition with_log (s : win) x := {| n_w := n_w s; n_sec := n_sec s; n_view := n_view s; n_resv := n_resv s; n_cache := n_cache s; n_env := n_env s; n_log := x; n_last := n_last s |}.
Definition with_last (s : win) x := {| n_w := n_w s; n_sec := n_sec s; n_view := n_view s; n_resv := n_resv s; n_cache := n_cache s; n_env := n_env s; n_log := n_log s; n_last := x |}.

Definition WT (E A : Type) := win -> out E A * win.
Definition wret {E A} (a : A) : WT E A := fun s => (Ret a, s).
Definition wout {E A} (x : out E A) : WT E A := fun s => (x, s).
Definition wbind {E A B} (m : WT E A) (k : A -> WT E B) : WT E B :=
  fun s => match m s with
           | (Ret a, s') => k a s'
           | (Err e, s') => (Err e, s')
           | (Panic, s') => (Panic, s')
           | (Fault, s') => (Fault, s')
           | (Blocked, s') => (Blocked, s')
           end.
Notation "'wdo*' x <- e ; k" := (wbind e (fun x => k))
  (at level 200, x pattern, e at level 100, k at level 200, right associativity).

(** Error codes used. *)
Definition ERROR_ACCESS_DENIED := 5.
Definition ERROR_INVALID_HANDLE := 6.
Definition ERROR_NOT_ENOUGH_MEMORY := 8.
Definition ERROR_INVALID_PARAMETER := 87.
Definition ERROR_INVALID_ADDRESS := 487.
Definition ERROR_FILE_INVALID := 1006.
Definition ERROR_MAPPED_ALIGNMENT := 1132.

(** One call: the kernel's answer [a], the pages [f] other threads hold now. *)
Definition call {A} (c : wcall) (k : Z -> (Z -> bool) -> WT Z A) : WT Z A := fun s =>
  let f := hd (fun _ => false) (n_env s) in
  let '(r, s1) := match ask (fun a w => (Ret a, w)) (n_w s) with
                  | (Ret a, w) => k a f (with_w (with_env s (tl (n_env s))) w)
                  | (Err e, w) => (Err e, with_w (with_env s (tl (n_env s))) w)
                  | (_, w) => (Blocked, with_w (with_env s (tl (n_env s))) w)
                  end in
  match r with
  | Ret x => (Ret x, with_log s1 ((c, true) :: n_log s1))
  | Err e => (Err e, with_last (with_log s1 ((c, false) :: n_log s1)) e)
  | x => (x, s1)
  end.

(** Page and view protections. *)
Inductive page_prot := PageReadOnly | PageReadWrite | PageWriteCopy | PageExecRead.
Inductive view_access := MapRead | MapReadWrite | MapCopy | MapReadExec.

(** the 64-bit value of a pair of DWORD arguments *)
Definition dwords (hi lo : Z) : Z := hi * 2 ^ 32 + lo.

Section Win.
  Variable t : target.
  Notation P := (t_page t).
  Notation G := (t_alloc t).

  (** Nothing of this process's known to the model and nothing of another
      thread is in the pages from address [a] on. *)
  Definition no_one (f : Z -> bool) (s : win) (a n : Z) : bool :=
    match n_view s a, n_resv s a with
    | None, None => free_range (n_w s) (a / P) n && forallb (fun p => negb (f p)) (page_seq (a / P) n)
    | _, _ => false
    end.

  Definition drop_pages (first n : Z) (s : win) : win :=
    with_w s (set_vm (n_w s) (fun p => if in_pages first n p then None else w_vm (n_w s) p)).

  (** CreateFileMappingW: of the paging file ([None]) or of a file. *)
  Definition create_mapping (file : option Z) (pr : page_prot) (hi lo : Z) : WT Z Z :=
    call WCreate (fun h _ s =>
      let size := dwords hi lo in
      match n_sec s h with
      | Some _ => (Err ERROR_NOT_ENOUGH_MEMORY, s)
      | None =>
        if h <=? 0 then (Err ERROR_NOT_ENOUGH_MEMORY, s) else
        match file with
        | None =>
          if (size =? 0) || (2 ^ 64 <=? P * npages t size) then (Err ERROR_INVALID_PARAMETER, s)
          else let w := n_w s in
               let o := w_next w in
               (Ret h, with_sec (with_w s (set_next (set_obj w (put (w_obj w) o
                    {| o_size := P * npages t size; o_data := fun _ => 0; o_disk := fun _ => 0 |})) (o + 1)))
                  (put (n_sec s) h (Some {| sc_obj := o; sc_size := P * npages t size;
                                            sc_w := match pr with PageReadWrite => true | _ => false end |})))
        | Some fd =>
          match w_fd (n_w s) fd with
          | None => (Err ERROR_INVALID_HANDLE, s)
          | Some f =>
            let fsize := o_size (w_obj (n_w s) (fd_obj f)) in
            let size := if size =? 0 then fsize else size in
            if fsize =? 0 then (Err ERROR_FILE_INVALID, s)
            else if match pr with PageReadWrite => negb (fd_w f) | _ => false end then (Err ERROR_ACCESS_DENIED, s)
            else if fsize <? size then (Err ERROR_NOT_ENOUGH_MEMORY, s)
            else (Ret h, with_sec s (put (n_sec s) h (Some {| sc_obj := fd_obj f; sc_size := size;
                    sc_w := match pr with PageReadWrite => true | _ => false end |})))
          end
        end
      end).

  (** CloseHandle; views keep the section alive. *)
  Definition close_handle (h : Z) : WT Z unit := fun s =>
    (Ret tt, with_log (with_sec s (put (n_sec s) h None)) ((WClose h, true) :: n_log s)).

  Definition access_prot (a : view_access) : prot :=
    match a with
    | MapRead => {| pr_r := true; pr_w := false; pr_x := false |}
    | MapReadWrite | MapCopy => {| pr_r := true; pr_w := true; pr_x := false |}
    | MapReadExec => {| pr_r := true; pr_w := false; pr_x := true |}
    end.
  Definition access_shared (a : view_access) : bool := match a with MapCopy => false | _ => true end.

  (** MapViewOfFileEx: at [at_] or, for 0, where the kernel likes; length 0 is
      the rest of the section. *)
  Definition map_view (h : Z) (acc : view_access) (hi lo len at_ : Z) : WT Z Z :=
    call (WMap at_) (fun a f s =>
      let off := dwords hi lo in
      let base := if at_ =? 0 then a else at_ in
      match n_sec s h with
      | None => (Err ERROR_INVALID_HANDLE, s)
      | Some c =>
        let len := if len =? 0 then sc_size c - off else len in
        let n := npages t len in
        if negb (off mod G =? 0) || negb (base mod G =? 0) then (Err ERROR_MAPPED_ALIGNMENT, s)
        else if (len <=? 0) || (sc_size c <? off + len) then (Err ERROR_ACCESS_DENIED, s)
        else if match acc with MapReadWrite => negb (sc_w c) | _ => false end then (Err ERROR_ACCESS_DENIED, s)
        else if negb (range_ok t base len) || negb (no_one f s base n) then (Err ERROR_INVALID_ADDRESS, s)
        else (Ret base,
              with_view (with_w s (set_vm (n_w s) (fun p =>
                if in_pages (base / P) n p
                then Some (entry (sc_obj c) (off / P + (p - base / P)) (access_prot acc) (access_shared acc)
                             (sc_w c || negb (access_shared acc)))
                else w_vm (n_w s) p)))
                (put (n_view s) base (Some n)))
      end).

  (** UnmapViewOfFile *)
  Definition unmap_view (a : Z) : WT Z unit :=
    call (WUnmap a) (fun _ _ s =>
      match n_view s a with
      | None => (Err ERROR_INVALID_ADDRESS, s)
      | Some n => (Ret tt, with_view (drop_pages (a / P) n s) (put (n_view s) a None))
      end).

  (** VirtualAlloc(NULL, len, MEM_RESERVE, PAGE_NOACCESS): inaccessible pages
      (of an object nobody can name) *)
  Definition virtual_alloc (len : Z) : WT Z Z :=
    call WReserve (fun a f s =>
      let n := npages t len in
      if len <=? 0 then (Err ERROR_INVALID_PARAMETER, s)
      else if negb (range_ok t a len) || negb (a mod G =? 0) || negb (no_one f s a n)
           then (Err ERROR_NOT_ENOUGH_MEMORY, s)
      else let w := n_w s in
           let o := w_next w in
           (Ret a, with_resv (with_w s (set_vm (set_next (set_obj w (put (w_obj w) o
                {| o_size := 0; o_data := fun _ => 0; o_disk := fun _ => 0 |})) (o + 1))
                (fun p => if in_pages (a / P) n p
                          then Some (entry o 0 {| pr_r := false; pr_w := false; pr_x := false |} false false)
                          else w_vm w p)))
              (put (n_resv s) a (Some n)))).

  (** VirtualFree(a, 0, MEM_RELEASE) *)
  Definition virtual_free (a : Z) : WT Z unit :=
    call (WRelease a) (fun _ _ s =>
      match n_resv s a with
      | None => (Err ERROR_INVALID_ADDRESS, s)
      | Some n => (Ret tt, with_resv (drop_pages (a / P) n s) (put (n_resv s) a None))
      end).

  (** Calls over mapped pages. *)
  Definition on_pages (c : wcall) (a len : Z) (k : Z -> Z -> WT Z unit) : WT Z unit :=
    call c (fun _ _ s =>
      let first := a / P in
      let n := npages t (a mod P + len) in
      if len <=? 0 then (Err ERROR_INVALID_PARAMETER, s)
      else if mapped_range (n_w s) first n then k first n s else (Err ERROR_INVALID_ADDRESS, s)).
  Definition change (g : pte -> pte) (first n : Z) : WT Z unit := fun s =>
    (Ret tt, with_w s (map_range g first n (n_w s))).

  (** VirtualProtect: a page that may not be written refuses PAGE_READWRITE. *)
  Definition page_prot_bits (p : page_prot) : prot :=
    match p with
    | PageReadOnly => {| pr_r := true; pr_w := false; pr_x := false |}
    | PageReadWrite | PageWriteCopy => {| pr_r := true; pr_w := true; pr_x := false |}
    | PageExecRead => {| pr_r := true; pr_w := false; pr_x := true |}
    end.
  Definition virtual_protect (a len : Z) (p : page_prot) : WT Z unit :=
    on_pages (WProtect a) a len (fun first n s =>
      if forallb (fun q => match w_vm (n_w s) q with
                           | Some e => negb (pr_w (page_prot_bits p)) || p_maxw e
                           | None => false
                           end) (page_seq first n)
      then change (set_prot (page_prot_bits p)) first n s
      else (Err ERROR_INVALID_PARAMETER, s)).

  (** VirtualLock, VirtualUnlock (the latter fails on pages not locked) *)
  Definition virtual_lock (a len : Z) : WT Z unit := on_pages (WLock a) a len (change (set_lock true)).
  Definition virtual_unlock (a len : Z) : WT Z unit :=
    on_pages (WUnlock a) a len (fun first n s =>
      if forallb (fun q => match w_vm (n_w s) q with Some e => p_lock e | None => false end) (page_seq first n)
      then change (set_lock false) first n s
      else (Err 158, s)).

  (** The end of the view address [a] is in: bases are multiples of [G], the
      nearest one from [b] downwards is tried. *)
  Fixpoint view_end (fuel : nat) (b : Z) (s : win) (a : Z) : option Z :=
    match fuel with
    | O => None
    | S fuel => match n_view s b with
                | Some n => if a <? b + P * n then Some (b + P * n) else None
                | None => view_end fuel (b - G) s a
                end
    end.
  Definition flush_len (s : win) (a len : Z) : Z :=
    if len =? 0 then match view_end (Z.to_nat (a / G)) (G * (a / G)) s a with Some e => e - a | None => 0 end else len.

  (** FlushViewOfFile hands the shared pages to the file system without
      waiting, for length 0 up to the end of the view; FlushFileBuffers waits
      until everything handed over for the file is stored, and needs write
      access. *)
  Definition flush_view (a len : Z) : WT Z unit := fun s0 =>
    on_pages (WFlushView a) a (flush_len s0 a len) (fun first n s =>
      (Ret tt, with_cache s (fun o i => if syncs t (n_w s) first n o i then o_data (w_obj (n_w s) o) i else n_cache s o i))) s0.
  Definition flush_file (fd : Z) : WT Z unit :=
    call (WFlushFile fd) (fun _ _ s =>
      match w_fd (n_w s) fd with
      | None => (Err ERROR_INVALID_HANDLE, s)
      | Some f =>
        if negb (fd_w f) then (Err ERROR_ACCESS_DENIED, s)
        else let o := fd_obj f in
             let x := w_obj (n_w s) o in
             (Ret tt, with_w s (set_obj (n_w s) (put (w_obj (n_w s)) o
                {| o_size := o_size x; o_data := o_data x; o_disk := n_cache s o |})))
      end).

  (** ** windows.rs *)

  (** a failed call as [Error::last_os_error], which reads the thread's last
      error *)
  Definition win_call {A} (op : operation) (m : WT Z A) : WT error A := fun s =>
    match m s with
    | (Ret a, s') => (Ret a, s')
    | (Err _, s') => (Err (last_os_error op (n_last s')), s')
    | (Panic, s') => (Panic, s')
    | (Fault, s') => (Fault, s')
    | (Blocked, s') => (Blocked, s')
    end.
  (** a call whose result is not looked at *)
  Definition no_result {A} (m : WT Z A) : WT error unit := fun s =>
    match m s with
    | (Ret _, s') | (Err _, s') => (Ret tt, s')
    | (Panic, s') => (Panic, s')
    | (Fault, s') => (Fault, s')
    | (Blocked, s') => (Blocked, s')
    end.

  (** the DWORD arguments of windows.rs:38-39, 59-60; shifting by 16 twice is
      0 on 32-bit targets *)
  Definition hi_dword (x : Z) : Z := Z.shiftr (Z.shiftr x 16) 16 mod 2 ^ 32.
  Definition lo_dword (x : Z) : Z := Z.land x (2 ^ 32 - 1) mod 2 ^ 32.

  (** MapHandle::new, windows.rs:33-47 *)
  Definition handle_new (op : operation) (file : option Z) (pr : page_prot) (len : Z) : WT error Z :=
    win_call op (create_mapping file pr (hi_dword len) (lo_dword len)).
  (** MapHandle::view over view_ptr, windows.rs:49-80 *)
  Definition handle_view (h : Z) (op : operation) (acc : view_access) (off len at_ : Z) : WT error Z :=
    win_call op (map_view h acc (hi_dword off) (lo_dword off) len at_).
  (** the scope of a MapHandle: dropped on every way out, windows.rs:83-89 *)
  Definition scoped {A} (h : Z) (m : WT error A) : WT error A := fun s =>
    let '(r, s') := m s in (r, snd (close_handle h s')).

  (** windows.rs:103-108, 118-123 *)
  Definition protect_pair (p : protect) : page_prot * view_access :=
    match p with
    | ReadOnly => (PageReadOnly, MapRead)
    | ReadWrite => (PageReadWrite, MapReadWrite)
    | ReadCopy => (PageWriteCopy, MapCopy)
    | ReadExec => (PageExecRead, MapReadExec)
    end.

  (** windows.rs:102-114 *)
  Definition win_map_file (fd off len : Z) (p : protect) : WT error Z :=
    let '(pr, acc) := protect_pair p in
    wdo* h <- handle_new MapFileHandle (Some fd) pr 0;
    scoped h (handle_view h MapFileView acc off len 0).

  (** windows.rs:117-129 *)
  Definition win_map_anon (len : Z) (p : protect) : WT error Z :=
    let '(pr, acc) := protect_pair p in
    wdo* h <- handle_new MapAnonymousHandle None pr len;
    scoped h (handle_view h MapAnonymousView acc 0 len 0).

  (** windows.rs:131-139 *)
  Definition reserve (len : Z) : WT error Z :=
    wdo* pg <- win_call RingAllocate (virtual_alloc len);
    wdo* _ <- no_result (virtual_free pg);
    wret pg.

  (** windows.rs:142-157; [pg.add(len)] is pointer arithmetic *)
  Definition map_ring_handle (h len pg : Z) : WT error Z :=
    wdo* a <- handle_view h RingPrimary MapReadWrite 0 len pg;
    fun s => match handle_view h RingSecondary MapReadWrite 0 len (ptr_add t pg len) s with
             | (Err e, s') => (wdo* _ <- no_result (unmap_view a); wout (Err e)) s'
             | (Ret _, s') => (Ret a, s')
             | (Panic, s') => (Panic, s')
             | (Fault, s') => (Fault, s')
             | (Blocked, s') => (Blocked, s')
             end.

  (** the loop of windows.rs:169-177; [more] is [5 - n] *)
  Fixpoint ring_loop (more : nat) (h len full : Z) : WT error Z :=
    wdo* pg <- reserve full;
    fun s => match map_ring_handle h len pg s with
             | (Err e, s') => match more with
                              | O => (Err e, s')
                              | S more => ring_loop more h len full s'
                              end
             | x => x
             end.

  (** windows.rs:165-178 *)
  Definition win_map_ring (len : Z) : WT error Z :=
    wdo* full <- wout (umul t 2 len);
    wdo* h <- handle_new RingAllocate None PageReadWrite full;
    scoped h (ring_loop 5 h len full).

  (** windows.rs:191-197: the comparison is the wrong way round *)
  Definition win_unmap (pg len : Z) : WT error unit := fun s =>
    match unmap_view pg s with
    | (Ret _, s') => (Err (last_os_error Unmap (n_last s')), s')
    | (Err _, s') => (Ret tt, s')
    | (Panic, s') => (Panic, s')
    | (Fault, s') => (Fault, s')
    | (Blocked, s') => (Blocked, s')
    end.

  (** windows.rs:211-218 *)
  Definition win_unmap_ring (pg len : Z) : WT error unit :=
    wdo* _ <- win_call RingDeallocate (unmap_view (ptr_add t pg len));
    no_result (unmap_view pg).

  (** windows.rs:231-244 *)
  Definition win_protect (pg len : Z) (p : protect) : WT error unit :=
    win_call OpProtect (virtual_protect pg len
      match p with
      | ReadOnly => PageReadOnly
      | ReadWrite => PageReadWrite
      | ReadCopy => PageReadWrite
      | ReadExec => PageExecRead
      end).

  (** windows.rs:257-272 *)
  Definition win_flush (pg fd len : Z) (mode : flush_mode) : WT error unit :=
    wdo* _ <- win_call OpFlush (flush_view pg len);
    match mode with
    | FlushSync => win_call OpFlush (flush_file fd)
    | FlushAsync => wret tt
    end.

  (** windows.rs:284-286 *)
  Definition win_advise (pg len : Z) (adv : advise_kind) : WT error unit := wret tt.

  (** windows.rs:299-305, 318-324 *)
  Definition win_lock (pg len : Z) : WT error unit := win_call OpLock (virtual_lock pg len).
  Definition win_unlock (pg len : Z) : WT error unit := win_call OpUnlock (virtual_unlock pg len).

  (** src/io/ring.rs:72-81, 233-242 and 92-96, 245-249 *)
  Definition win_ring_new (hint : Z) : WT error ring_alloc :=
    wdo* len <- wout (size_round t (size_alloc t) hint);
    wdo* ptr <- win_map_ring len;
    wret {| ra_ptr := ptr; ra_len := len |}.
  Definition win_ring_drop (r : ring_alloc) : WT error unit := fun s =>
    match win_unmap_ring (ra_ptr r) (ra_len r) s with
    | (Err _, s') => (Ret tt, s')
    | x => x
    end.
End Win.
