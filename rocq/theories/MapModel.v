(** Model of src/map.rs and of the parts of src/os/unix/mod.rs it calls, over
    the kernel of OsModel.v.

    A path is a number, a [File] is a descriptor number, a raw pointer is an
    address.  [Map] is a newtype around [MapMut] (src/map.rs:36); both are the
    record [mapping]. *)
From Verif Require Import Base ErrorModel SizeModel OsModel.

(** src/lib.rs:168-177 *)
Inductive protect := ReadOnly | ReadWrite | ReadCopy | ReadExec.
(** src/lib.rs:181-186 *)
Inductive flush_mode := FlushSync | FlushAsync.
(** src/lib.rs:190-201 *)
Inductive advise_kind := AdvNormal | AdvSequential | AdvRandom | AdvWillNeed | AdvWillNotNeed.
(** src/lib.rs:211-223 *)
Inductive extent := ExtEnd | ExtExact (n : Z) | ExtMin (n : Z) | ExtMax (n : Z).

(** src/map.rs:196-199 *)
Record mapping := { m_ptr : Z; m_len : Z }.

(** Turn the errno of a failed system call into an [Error]
    ([Error::last_os_error]). *)
Definition os_call {A} (op : operation) (m : ST Z A) : ST error A := fun w =>
  match m w with
  | (Ret a, w') => (Ret a, w')
  | (Err e, w') => (Err (last_os_error op e), w')
  | (Panic, w') => (Panic, w')
  | (Fault, w') => (Fault, w')
  | (Blocked, w') => (Blocked, w')
  end.

Section Map.
  Variable t : target.

  (** ** src/os/unix/mod.rs *)
  Definition PR : prot := {| pr_r := true; pr_w := false; pr_x := false |}.
  Definition PRW : prot := {| pr_r := true; pr_w := true; pr_x := false |}.
  Definition PRX : prot := {| pr_r := true; pr_w := false; pr_x := true |}.

  (** src/os/unix/mod.rs:46-66; the offset is passed [as off_t] *)
  Definition os_map_file (fd off len : Z) (p : protect) : ST error Z :=
    let '(pr, shared) := match p with
                         | ReadOnly => (PR, true)
                         | ReadWrite => (PRW, true)
                         | ReadCopy => (PRW, false)
                         | ReadExec => (PRX, false)
                         end in
    os_call MapFile (sys_mmap t false 0 len pr shared false fd (as_signed t off)).

  (** src/os/unix/mod.rs:69-77; ReadOnly does not pass MAP_ANON *)
  Definition os_map_anon (len : Z) (p : protect) : ST error Z :=
    let '(pr, anon, shared) := match p with
                               | ReadOnly => (PR, false, true)
                               | ReadWrite => (PRW, true, true)
                               | ReadCopy => (PRW, true, false)
                               | ReadExec => (PRX, true, false)
                               end in
    os_call MapAnonymous (sys_mmap t false 0 len pr shared anon (-1) 0).

  (** src/os/unix/mod.rs:90-96 *)
  Definition os_unmap (pg len : Z) : ST error unit := os_call Unmap (sys_munmap t pg len).

  (** src/os/unix/mod.rs:109-121 *)
  Definition os_protect (pg len : Z) (p : protect) : ST error unit :=
    let pr := match p with
              | ReadOnly => PR
              | ReadWrite => PRW
              | ReadCopy => PRW
              | ReadExec => PRX
              end in
    os_call OpProtect (sys_mprotect t pg len pr).

  (** src/os/unix/mod.rs:134-144; the file argument is unused *)
  Definition os_flush (pg len : Z) (mode : flush_mode) : ST error unit :=
    os_call OpFlush (sys_msync t pg len (match mode with FlushSync => true | FlushAsync => false end)).

  (** src/os/unix/mod.rs:157-171 *)
  Definition os_advise (pg len : Z) (adv : advise_kind) : ST error unit :=
    os_call OpAdvise (sys_madvise t pg len
      (match adv with
       | AdvNormal => false
       | AdvSequential => false
       | AdvRandom => false
       | AdvWillNeed => false
       | AdvWillNotNeed => true
       end)).

  (** src/os/unix/mod.rs:184-190, 203-209 *)
  Definition os_lock (pg len : Z) : ST error unit := os_call OpLock (sys_mlock t pg len).
  Definition os_unlock (pg len : Z) : ST error unit := os_call OpUnlock (sys_munlock t pg len).

  (** ** Options (src/map.rs:498-1241) *)

  (** The parts of [std::fs::OpenOptions] used; read is always true. *)
  Record open_options := { oo_write : bool; oo_create : bool; oo_create_new : bool; oo_truncate : bool }.
  Record options := {
    op_open : open_options;
    op_resize : extent;
    op_len : extent;
    op_offset : Z;
    op_protect : protect;
    op_truncate : bool
  }.

  (** src/map.rs:517-529 *)
  Definition opt_new : options :=
    {| op_open := {| oo_write := false; oo_create := false; oo_create_new := false; oo_truncate := false |};
       op_resize := ExtEnd; op_len := ExtEnd; op_offset := 0; op_protect := ReadOnly; op_truncate := false |}.
  (** src/map.rs:1243-1247 *)
  Definition opt_default : options := opt_new.

  Definition set_open (o : options) f := {| op_open := f; op_resize := op_resize o; op_len := op_len o;
    op_offset := op_offset o; op_protect := op_protect o; op_truncate := op_truncate o |}.
  Definition oo_set_write (o : open_options) b := {| oo_write := b; oo_create := oo_create o;
    oo_create_new := oo_create_new o; oo_truncate := oo_truncate o |}.

  (** src/map.rs:555-559 *)
  Definition opt_write (o : options) : options :=
    {| op_open := oo_set_write (op_open o) true; op_resize := op_resize o; op_len := op_len o;
       op_offset := op_offset o; op_protect := ReadWrite; op_truncate := op_truncate o |}.
  (** src/map.rs:589-593 *)
  Definition opt_copy (o : options) : options :=
    {| op_open := oo_set_write (op_open o) false; op_resize := op_resize o; op_len := op_len o;
       op_offset := op_offset o; op_protect := ReadCopy; op_truncate := op_truncate o |}.
  (** src/map.rs:626-629 *)
  Definition opt_create (b : bool) (o : options) : options :=
    set_open o {| oo_write := oo_write (op_open o); oo_create := b;
                  oo_create_new := oo_create_new (op_open o); oo_truncate := oo_truncate (op_open o) |}.
  (** src/map.rs:666-669 *)
  Definition opt_create_new (b : bool) (o : options) : options :=
    set_open o {| oo_write := oo_write (op_open o); oo_create := oo_create (op_open o);
                  oo_create_new := b; oo_truncate := oo_truncate (op_open o) |}.
  (** src/map.rs:709-713 *)
  Definition opt_truncate (b : bool) (o : options) : options :=
    {| op_open := {| oo_write := oo_write (op_open o); oo_create := oo_create (op_open o);
                     oo_create_new := oo_create_new (op_open o); oo_truncate := b |};
       op_resize := op_resize o; op_len := op_len o; op_offset := op_offset o;
       op_protect := op_protect o; op_truncate := b |}.
  (** src/map.rs:740-743 *)
  Definition opt_offset (n : Z) (o : options) : options :=
    {| op_open := op_open o; op_resize := op_resize o; op_len := op_len o; op_offset := n;
       op_protect := op_protect o; op_truncate := op_truncate o |}.
  (** src/map.rs:884-887 *)
  Definition opt_len (e : extent) (o : options) : options :=
    {| op_open := op_open o; op_resize := op_resize o; op_len := e; op_offset := op_offset o;
       op_protect := op_protect o; op_truncate := op_truncate o |}.
  (** src/map.rs:1030-1033 *)
  Definition opt_resize (e : extent) (o : options) : options :=
    {| op_open := op_open o; op_resize := e; op_len := op_len o; op_offset := op_offset o;
       op_protect := op_protect o; op_truncate := op_truncate o |}.
  (** src/lib.rs:225-229: [From<usize> for Extent] *)
  Definition extent_of (n : Z) : extent := ExtExact n.

  (** src/map.rs:67-69 *)
  Definition map_with_options : options := opt_new.
  (** src/map.rs:235-239 *)
  Definition mapmut_with_options : options := opt_write opt_new.

  (** ** std::fs *)

  (** [File::set_len]: a length above i64::MAX is refused by std with
      InvalidInput, otherwise ftruncate. *)
  Definition file_set_len (fd sz : Z) : ST io_error unit := fun w =>
    if 2 ^ 63 - 1 <? sz then (Err (IoSimple InvalidInput), w)
    else match sys_ftruncate t fd sz w with
         | (Ret a, w') => (Ret a, w')
         | (Err e, w') => (Err (IoOs e), w')
         | (_, w') => (Panic, w')
         end.
  (** [File::metadata()?.len()] *)
  Definition file_len (fd : Z) : ST io_error Z := fun w =>
    match sys_fstat fd w with
    | (Ret a, w') => (Ret a, w')
    | (Err e, w') => (Err (IoOs e), w')
    | (_, w') => (Panic, w')
    end.
  (** [OpenOptions::open] on Unix: creating or truncating without write access
      is refused with EINVAL before any system call; create_new wins over
      create and truncate. *)
  Definition file_open (o : open_options) (path : Z) : ST io_error Z := fun w =>
    if negb (oo_write o) && (oo_create o || oo_create_new o || oo_truncate o) then (Err (IoOs EINVAL), w)
    else
      match sys_open t path (oo_write o) (oo_create o || oo_create_new o) (oo_create_new o)
              (oo_truncate o && negb (oo_create_new o)) w with
      | (Ret a, w') => (Ret a, w')
      | (Err e, w') => (Err (IoOs e), w')
      | (_, w') => (Panic, w')
      end.

  (** src/map.rs:1249-1251 *)
  Definition map_file_err (e : io_error) : error := error_io MapFile e.
  Definition io_call {A} (m : ST io_error A) : ST error A := fun w =>
    match m w with
    | (Ret a, w') => (Ret a, w')
    | (Err e, w') => (Err (map_file_err e), w')
    | (Panic, w') => (Panic, w')
    | (Fault, w') => (Fault, w')
    | (Blocked, w') => (Blocked, w')
    end.

  (** [ptr.add(off)]; arithmetic on addresses wraps. *)
  Definition ptr_add (p off : Z) : Z := as_usize t (p + off).

  (** src/map.rs:1186: the resize closure *)
  Definition resize_to (fd sz : Z) : ST error Z :=
    do* _ <- io_call (file_set_len fd (as_u64 sz));
    sret sz.

  (** src/map.rs:1199-1213: offset, extent and length of the file *)
  Definition extent_len (e : extent) (max : Z) : option Z :=
    match e with
    | ExtMin l => if max <? l then None else Some max
    | ExtExact l => if max <? l then None else Some l
    | ExtEnd => Some max
    | ExtMax l => Some (Z.min l max)
    end.

  (** src/map.rs:1182-1215 *)
  Definition map_if (o : options) (fd : Z) : ST error (option mapping) :=
    let off := op_offset o in
    do* flen <- (do* l <- io_call (file_len fd); sret (as_usize t l));
    do* flen <- (if op_truncate o && (0 <? flen) then resize_to fd 0 else sret flen);
    do* flen <- match op_resize o with
                | ExtExact sz => resize_to fd sz
                | ExtMin sz => if flen <? sz then resize_to fd sz else sret flen
                | ExtMax sz => if sz <? flen then resize_to fd sz else sret flen
                | ExtEnd => sret flen
                end;
    if flen <? off then sret None
    else
      do* max <- sout (usub t flen off);
      match extent_len (op_len o) max with
      | None => sret None
      | Some len =>
        do* mapoff <- sout (size_truncate t (size_alloc t) off);
        do* d <- sout (usub t off mapoff);
        do* maplen <- sout (uadd t len d);
        do* ptr <- os_map_file fd mapoff maplen (op_protect o);
        sret (Some {| m_ptr := ptr_add ptr d; m_len := len |})
      end.

  (** src/map.rs:1143-1146 *)
  Definition map_ (o : options) (fd : Z) : ST error mapping :=
    do* r <- map_if o fd;
    match r with
    | Some m => sret m
    | None => sout (Err (error_input MapFile InvalidRange))
    end.

  (** The [File] is dropped (closed) when [?] returns early. *)
  Definition closing {A} (fd : Z) (m : ST error A) : ST error A := fun w =>
    match m w with
    | (Ret a, w') => (Ret a, w')
    | (r, w') => (r, snd (sys_close fd w'))
    end.

  (** src/map.rs:1067-1070 *)
  Definition open_ (o : options) (path : Z) : ST error (mapping * Z) :=
    do* f <- io_call (file_open (op_open o) path);
    do* m <- closing f (map_ o f);
    sret (m, f).

  (** src/map.rs:1108-1111 *)
  Definition open_if (o : options) (path : Z) : ST error (option mapping * Z) :=
    do* f <- io_call (file_open (op_open o) path);
    do* m <- closing f (map_if o f);
    sret (m, f).

  (** src/map.rs:1230-1240 *)
  Definition alloc (o : options) : ST error mapping :=
    do* off <- sout (size_offset t (size_page t) (op_offset o));
    do* len <- match op_len o with
               | ExtEnd => sout (let* a := uadd t off 1 in
                                 let* r := size_round t (size_alloc t) a in usub t r off)
               | ExtMin l => sout (let* a := uadd t off l in
                                   let* r := size_round t (size_alloc t) a in usub t r off)
               | ExtMax l => sret l
               | ExtExact l => sret l
               end;
    do* total <- sout (uadd t off len);
    do* ptr <- os_map_anon total (op_protect o);
    sret {| m_ptr := ptr_add ptr off; m_len := len |}.

  (** src/map.rs:256-258 *)
  Definition mapmut_new (hint : Z) : ST error mapping := alloc (opt_len (ExtMin hint) mapmut_with_options).

  (** ** Operations on maps *)

  (** A conversion consumes the map and hands it back on failure
      (src/error.rs:17): the error outcome carries both. *)
  Definition convert (m : mapping) (r : ST error unit) : ST (error * mapping) mapping := fun w =>
    match r w with
    | (Ret _, w') => (Ret m, w')
    | (Err e, w') => (Err (e, m), w')
    | (Panic, w') => (Panic, w')
    | (Fault, w') => (Fault, w')
    | (Blocked, w') => (Blocked, w')
    end.

  (** src/map.rs:101-107 *)
  Definition into_map_mut (m : mapping) : ST (error * mapping) mapping :=
    convert m (do* b <- sout (size_bounds t (size_page t) (m_ptr m) (m_len m));
               os_protect (fst b) (snd b) ReadWrite).

  (** src/map.rs:289-295 *)
  Definition into_map (m : mapping) : ST (error * mapping) mapping :=
    convert m (do* b <- sout (size_bounds t (size_page t) (m_ptr m) (m_len m));
               os_protect (fst b) (snd b) ReadWrite).

  (** The shape shared by flush/advise/lock/unlock: the page bounds of the
      whole map, respectively of a checked sub-range. *)
  Definition whole (m : mapping) (f : Z -> Z -> ST error unit) : ST error unit :=
    do* b <- sout (size_bounds t (size_page t) (m_ptr m) (m_len m));
    f (fst b) (snd b).
  Definition ranged (op : operation) (m : mapping) (off len : Z) (f : Z -> Z -> ST error unit) : ST error unit :=
    do* e <- sout (uadd t off len);
    if m_len m <? e then sout (Err (error_input op InvalidRange))
    else
      do* b <- sout (size_bounds t (size_page t) (ptr_add (m_ptr m) off) len);
      f (fst b) (snd b).

  (** src/map.rs:301-306, 312-321 *)
  Definition flush (m : mapping) (mode : flush_mode) : ST error unit := whole m (fun p l => os_flush p l mode).
  Definition flush_range (m : mapping) (off len : Z) (mode : flush_mode) : ST error unit :=
    ranged OpFlush m off len (fun p l => os_flush p l mode).
  (** src/map.rs:324-329, 332-341 (and 110-117 for Map) *)
  Definition advise (m : mapping) (adv : advise_kind) : ST error unit := whole m (fun p l => os_advise p l adv).
  Definition advise_range (m : mapping) (off len : Z) (adv : advise_kind) : ST error unit :=
    ranged OpAdvise m off len (fun p l => os_advise p l adv).
  (** src/map.rs:344-349, 352-361 (and 120-127) *)
  Definition lock (m : mapping) : ST error unit := whole m os_lock.
  Definition lock_range (m : mapping) (off len : Z) : ST error unit := ranged OpLock m off len os_lock.
  (** src/map.rs:364-369, 372-381 (and 130-137) *)
  Definition unlock (m : mapping) : ST error unit := whole m os_unlock.
  Definition unlock_range (m : mapping) (off len : Z) : ST error unit := ranged OpUnlock m off len os_unlock.

  (** src/map.rs:409-418; errors are ignored *)
  Definition drop_map (m : mapping) : ST error unit := fun w =>
    if 0 <? m_len m then
      match size_bounds t (size_alloc t) (m_ptr m) (m_len m) with
      | Ret (p, l) => match os_unmap p l w with
                      | (Err _, w') => (Ret tt, w')
                      | (r, w') => (r, w')
                      end
      | Err e => (Err e, w)
      | Panic => (Panic, w)
      | Fault => (Fault, w)
      | Blocked => (Blocked, w)
      end
    else (Ret tt, w).

  (** Reading and writing through the slice of a map
      (src/map.rs:158-165, 420-434); the index is checked by the slice. *)
  Definition map_get (m : mapping) (i : Z) : ST error byte := fun w =>
    if (0 <=? i) && (i <? m_len m) then (OsModel.load t w (ptr_add (m_ptr m) i), w) else (Panic, w).
  Definition map_set (m : mapping) (i : Z) (b : byte) : ST error unit := fun w =>
    if (0 <=? i) && (i <? m_len m) then OsModel.store t (ptr_add (m_ptr m) i) b w else (Panic, w).
End Map.
