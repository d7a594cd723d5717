(** src/map.rs on Windows: the functions of MapModel.v over src/os/windows.rs
    (WinModel.v), and histories of maps and rings.

    The code of src/map.rs is the same on both systems; what differs is the os
    layer it calls, the allocation granularity, and that [flush] passes its file
    on.  The calls of std::fs are those of MapModel.v, lifted to the Windows
    state.

    Simplifications: std::fs reports the error numbers of MapModel.v, not the
    Windows ones; shortening a file may succeed although views of it exist
    (Windows may refuse it, which is a refusal of the kernel here); [lock] of
    pages other threads hold is not modelled. *)
From Verif Require Import Base ErrorModel SizeModel OsModel MapModel RingMapModel WinModel OthersModel.

Definition lift {E A} (m : ST E A) : WT E A := fun s => let '(r, w) := m (n_w s) in (r, with_w s w).

Section WinMap.
  Variable t : target.

  (** src/map.rs:1182-1215 *)
  Definition wmap_if (o : options) (fd : Z) : WT error (option mapping) :=
    let off := op_offset o in
    wdo* flen <- lift (do* l <- io_call (file_len fd); sret (as_usize t l));
    wdo* flen <- lift (if op_truncate o && (0 <? flen) then resize_to t fd 0 else sret flen);
    wdo* flen <- lift match op_resize o with
                      | ExtExact sz => resize_to t fd sz
                      | ExtMin sz => if flen <? sz then resize_to t fd sz else sret flen
                      | ExtMax sz => if sz <? flen then resize_to t fd sz else sret flen
                      | ExtEnd => sret flen
                      end;
    if flen <? off then wret None
    else
      wdo* max <- wout (usub t flen off);
      match extent_len (op_len o) max with
      | None => wret None
      | Some len =>
        wdo* mapoff <- wout (size_truncate t (size_alloc t) off);
        wdo* d <- wout (usub t off mapoff);
        wdo* maplen <- wout (uadd t len d);
        wdo* ptr <- win_map_file t fd mapoff maplen (op_protect o);
        wret (Some {| m_ptr := ptr_add t ptr d; m_len := len |})
      end.

  (** src/map.rs:1143-1146 *)
  Definition wmap (o : options) (fd : Z) : WT error mapping :=
    wdo* r <- wmap_if o fd;
    match r with
    | Some m => wret m
    | None => wout (Err (error_input MapFile InvalidRange))
    end.

  (** The [File] is dropped (closed) when [?] returns early. *)
  Definition wclosing {A} (fd : Z) (m : WT error A) : WT error A := fun s =>
    match m s with
    | (Ret a, s') => (Ret a, s')
    | (r, s') => (r, with_w s' (snd (sys_close fd (n_w s'))))
    end.

  (** src/map.rs:1067-1070 *)
  Definition wopen (o : options) (path : Z) : WT error (mapping * Z) :=
    wdo* f <- lift (io_call (file_open t (op_open o) path));
    wdo* m <- wclosing f (wmap o f);
    wret (m, f).

  (** src/map.rs:1108-1111 *)
  Definition wopen_if (o : options) (path : Z) : WT error (option mapping * Z) :=
    wdo* f <- lift (io_call (file_open t (op_open o) path));
    wdo* m <- wclosing f (wmap_if o f);
    wret (m, f).

  (** src/map.rs:1230-1240 *)
  Definition walloc (o : options) : WT error mapping :=
    wdo* off <- wout (size_offset t (size_page t) (op_offset o));
    wdo* len <- match op_len o with
                | ExtEnd => wout (let* a := uadd t off 1 in
                                  let* r := size_round t (size_alloc t) a in usub t r off)
                | ExtMin l => wout (let* a := uadd t off l in
                                    let* r := size_round t (size_alloc t) a in usub t r off)
                | ExtMax l => wret l
                | ExtExact l => wret l
                end;
    wdo* total <- wout (uadd t off len);
    wdo* ptr <- win_map_anon t total (op_protect o);
    wret {| m_ptr := ptr_add t ptr off; m_len := len |}.

  (** src/map.rs:256-258 *)
  Definition wmapmut_new (hint : Z) : WT error mapping := walloc (opt_len (ExtMin hint) mapmut_with_options).

  (** A conversion hands the map back on failure (src/error.rs:17). *)
  Definition wconvert (m : mapping) (r : WT error unit) : WT (error * mapping) mapping := fun s =>
    match r s with
    | (Ret _, s') => (Ret m, s')
    | (Err e, s') => (Err (e, m), s')
    | (Panic, s') => (Panic, s')
    | (Fault, s') => (Fault, s')
    | (Blocked, s') => (Blocked, s')
    end.

  (** The page bounds of the whole map, respectively of a checked sub-range. *)
  Definition wwhole (m : mapping) (f : Z -> Z -> WT error unit) : WT error unit :=
    wdo* b <- wout (size_bounds t (size_page t) (m_ptr m) (m_len m));
    f (fst b) (snd b).
  Definition wranged (op : operation) (m : mapping) (off len : Z) (f : Z -> Z -> WT error unit) : WT error unit :=
    wdo* e <- wout (uadd t off len);
    if m_len m <? e then wout (Err (error_input op InvalidRange))
    else
      wdo* b <- wout (size_bounds t (size_page t) (ptr_add t (m_ptr m) off) len);
      f (fst b) (snd b).

  (** src/map.rs:101-107 *)
  Definition winto_map_mut (m : mapping) : WT (error * mapping) mapping :=
    wconvert m (wwhole m (fun p l => win_protect t p l ReadWrite)).
  (** src/map.rs:289-295 *)
  Definition winto_map (m : mapping) : WT (error * mapping) mapping :=
    wconvert m (wwhole m (fun p l => win_protect t p l ReadWrite)).

  (** src/map.rs:301-306, 312-321 *)
  Definition wflush (m : mapping) (fd : Z) (mode : flush_mode) : WT error unit :=
    wwhole m (fun p l => win_flush t p fd l mode).
  Definition wflush_range (m : mapping) (fd off len : Z) (mode : flush_mode) : WT error unit :=
    wranged OpFlush m off len (fun p l => win_flush t p fd l mode).
  (** src/map.rs:324-329, 332-341 (and 110-117 for Map) *)
  Definition wadvise (m : mapping) (adv : advise_kind) : WT error unit := wwhole m (fun p l => win_advise p l adv).
  Definition wadvise_range (m : mapping) (off len : Z) (adv : advise_kind) : WT error unit :=
    wranged OpAdvise m off len (fun p l => win_advise p l adv).
  (** src/map.rs:344-349, 352-361 (and 120-127) *)
  Definition wlock (m : mapping) : WT error unit := wwhole m (win_lock t).
  Definition wlock_range (m : mapping) (off len : Z) : WT error unit := wranged OpLock m off len (win_lock t).
  (** src/map.rs:364-369, 372-381 (and 130-137) *)
  Definition wunlock (m : mapping) : WT error unit := wwhole m (win_unlock t).
  Definition wunlock_range (m : mapping) (off len : Z) : WT error unit := wranged OpUnlock m off len (win_unlock t).

  (** src/map.rs:409-418; errors are ignored *)
  Definition wdrop (m : mapping) : WT error unit := fun s =>
    if 0 <? m_len m then
      match size_bounds t (size_alloc t) (m_ptr m) (m_len m) with
      | Ret (p, l) => match win_unmap t p l s with
                      | (Err _, s') => (Ret tt, s')
                      | (r, s') => (r, s')
                      end
      | Err e => (Err e, s)
      | Panic => (Panic, s)
      | Fault => (Fault, s)
      | Blocked => (Blocked, s)
      end
    else (Ret tt, s).

  (** Reading and writing through the slice of a map
      (src/map.rs:158-165, 420-434). *)
  Definition wget (m : mapping) (i : Z) : WT error byte := lift (map_get t m i).
  Definition wset (m : mapping) (i : Z) (b : byte) : WT error unit := lift (map_set t m i b).

  (** Reading and writing one of the 2*len bytes of a ring through the slices
      of [SeqRead] and [SeqWrite] (src/io/mod.rs:42-51, 92-101), whose offset
      and length are each below respectively at most len (RingModel.v). *)
  Definition wring_get (r : ring_alloc) (i : Z) : WT error byte := fun s =>
    if (0 <=? i) && (i <? 2 * ra_len r) then (OsModel.load t (n_w s) (ra_ptr r + i), s) else (Panic, s).
  Definition wring_set (r : ring_alloc) (i : Z) (b : byte) : WT error unit :=
    lift (fun w => if (0 <=? i) && (i <? 2 * ra_len r) then OsModel.store t (ra_ptr r + i) b w else (Panic, w)).
End WinMap.

(** ** Histories *)

(** A map a program holds: [v_mut] tells [MapMut] from [Map]; the object, the
    offset into it and the protection it was made with; whether it is an
    anonymous one; whether the protection asked for last allows writing.  All
    but [v_map] and [v_mut] is for the specification only. *)
Record held := { v_map : mapping; v_mut : bool; v_obj : Z; v_off : Z; v_prot : protect; v_anon : bool; v_w : bool }.

(** What a program holds: a map, or a ring (with its memory object, for the
    specification only). *)
Inductive thing := TMap (v : held) | TRing (r : ring_alloc) (o : Z).

Record prog := { g_s : win; g_tab : Z -> option thing; g_cnt : Z }.

Inductive act :=
| AOpen (mut : bool) (o : options) (path : Z)
| AMap (mut : bool) (o : options) (fd : Z)
| AAlloc (mut : bool) (o : options)
| AClose (fd : Z)
| AToMut (k : Z)
| AToMap (k : Z)
| AGet (k i : Z)
| ASet (k i : Z) (b : byte)
| AFlush (k fd : Z) (mode : flush_mode)
| AFlushRange (k fd off len : Z) (mode : flush_mode)
| AAdvise (k : Z) (adv : advise_kind)
| AAdviseRange (k off len : Z) (adv : advise_kind)
| ALock (k : Z)
| ALockRange (k off len : Z)
| AUnlock (k : Z)
| AUnlockRange (k off len : Z)
| ARing (hint : Z)
| ADrop (k : Z)
| AOther (e : other).                            (* another process, between two calls (OthersModel.v) *)

Inductive got := GNone | GByte (b : byte) | GThing (k : Z) | GFile (m : option Z) (fd : Z).

Definition g_set (g : prog) (s : win) : prog := {| g_s := s; g_tab := g_tab g; g_cnt := g_cnt g |}.
Definition g_add (g : prog) (s : win) (x : thing) : prog :=
  {| g_s := s; g_tab := put (g_tab g) (g_cnt g) (Some x); g_cnt := g_cnt g + 1 |}.
Definition g_put (g : prog) (s : win) (k : Z) (x : option thing) : prog :=
  {| g_s := s; g_tab := put (g_tab g) k x; g_cnt := g_cnt g |}.

(** What the program sees of the outcome [r] of a call, with its new state:
    [f] after a success, [g] otherwise. *)
Definition finish {E A} (r : out E A) (err : E -> error) (f : A -> got * prog) (g : prog) : out error got * prog :=
  match r with
  | Ret a => (Ret (fst (f a)), snd (f a))
  | Err e => (Err (err e), g)
  | Panic => (Panic, g)
  | Fault => (Fault, g)
  | Blocked => (Blocked, g)
  end.
Definition same_error (e : error) : error := e.

Section Hist.
  Variable t : target.

  Definition fd_objw (w : world) (fd : Z) : Z := match w_fd w fd with Some f => fd_obj f | None => 0 end.
  Definition writable (p : protect) : bool := match p with ReadWrite | ReadCopy => true | ReadOnly | ReadExec => false end.
  Definition held_file (mut : bool) (o : options) (s : win) (fd : Z) (m : mapping) : thing :=
    TMap {| v_map := m; v_mut := mut; v_obj := fd_objw (n_w s) fd; v_off := op_offset o; v_prot := op_protect o;
            v_anon := false; v_w := writable (op_protect o) |}.
  Definition held_anon (mut : bool) (o : options) (s : win) (m : mapping) : thing :=
    TMap {| v_map := m; v_mut := mut; v_obj := w_next (n_w s); v_off := op_offset o mod t_page t; v_prot := op_protect o;
            v_anon := true; v_w := writable (op_protect o) |}.
  Definition converted (v : held) (b : bool) : thing :=
    TMap {| v_map := v_map v; v_mut := b; v_obj := v_obj v; v_off := v_off v; v_prot := v_prot v; v_anon := v_anon v; v_w := b |}.

  (** A call that leaves what the program holds as it is. *)
  Definition plain (g : prog) (x : out error unit * win) : out error got * prog :=
    finish (fst x) same_error (fun _ => (GNone, g_set g (snd x))) (g_set g (snd x)).
  Definition reads (g : prog) (x : out error byte * win) : out error got * prog :=
    finish (fst x) same_error (fun b => (GByte b, g_set g (snd x))) (g_set g (snd x)).
  Definition with_map (g : prog) (k : Z) (f : held -> out error got * prog) : out error got * prog :=
    match g_tab g k with Some (TMap v) => f v | _ => (Ret GNone, g) end.
  Definition with_mut (g : prog) (k : Z) (f : held -> out error got * prog) : out error got * prog :=
    with_map g k (fun v => if v_mut v then f v else (Ret GNone, g)).

  (** One call.  Methods a type does not have do nothing. *)
  (** The acts of OthersModel.v on the state of Windows.  What another process
      writes and waits for ([sync]) has been handed to the file system too;
      lengths change as in [resize_obj].  Simplification: another process may
      shorten a file although views of it exist (Windows refuses that). *)
  Definition wothers (e : other) (s : win) : win :=
    let w := n_w s in
    let w' := others t e w in
    let at_cache path (f : Z -> (Z -> byte) -> Z -> byte) :=
      match w_fs w path with Some o => put (n_cache s) o (f o (n_cache s o)) | None => n_cache s end in
    with_cache (with_w s w')
      match e with
      | OGrow path _ | OCut path _ => at_cache path (fun o => clip (Z.min (o_size (w_obj w o)) (o_size (w_obj w' o))))
      | OWrite path off d true => at_cache path (fun o c => splice c off d (o_size (w_obj w o)))
      | _ => n_cache s
      end.

  Definition act_step (a : act) (g : prog) : out error got * prog :=
    let s := g_s g in
    match a with
    | AOpen mut o path =>
      let '(r, s') := wopen_if t o path s in
      finish r same_error
        (fun x => match fst x with
                  | Some m => (GFile (Some (g_cnt g)) (snd x), g_add g s' (held_file mut o s' (snd x) m))
                  | None => (GFile None (snd x), g_set g s')
                  end) (g_set g s')
    | AMap mut o fd =>
      let '(r, s') := wmap_if t o fd s in
      finish r same_error
        (fun x => match x with
                  | Some m => (GThing (g_cnt g), g_add g s' (held_file mut o s' fd m))
                  | None => (GNone, g_set g s')
                  end) (g_set g s')
    | AAlloc mut o =>
      let '(r, s') := walloc t o s in
      finish r same_error (fun m => (GThing (g_cnt g), g_add g s' (held_anon mut o s m))) (g_set g s')
    | AClose fd => (Ret GNone, g_set g (with_w s (snd (sys_close fd (n_w s)))))
    | AToMut k => with_map g k (fun v =>
        if v_mut v then (Ret GNone, g) else
        let '(r, s') := winto_map_mut t (v_map v) s in
        finish r fst (fun _ => (GNone, g_put g s' k (Some (converted v true)))) (g_set g s'))
    | AToMap k => with_mut g k (fun v =>
        let '(r, s') := winto_map t (v_map v) s in
        finish r fst (fun _ => (GNone, g_put g s' k (Some (converted v false)))) (g_set g s'))
    | AGet k i => match g_tab g k with
                  | Some (TMap v) => reads g (wget t (v_map v) i s)
                  | Some (TRing r _) => reads g (wring_get t r i s)
                  | None => (Ret GNone, g)
                  end
    | ASet k i b => match g_tab g k with
                    | Some (TMap v) => if v_mut v then plain g (wset t (v_map v) i b s) else (Ret GNone, g)
                    | Some (TRing r _) => plain g (wring_set t r i b s)
                    | None => (Ret GNone, g)
                    end
    | AFlush k fd mode => with_mut g k (fun v => plain g (wflush t (v_map v) fd mode s))
    | AFlushRange k fd off len mode => with_mut g k (fun v => plain g (wflush_range t (v_map v) fd off len mode s))
    | AAdvise k adv => with_map g k (fun v => plain g (wadvise t (v_map v) adv s))
    | AAdviseRange k off len adv => with_map g k (fun v => plain g (wadvise_range t (v_map v) off len adv s))
    | ALock k => with_map g k (fun v => plain g (wlock t (v_map v) s))
    | ALockRange k off len => with_map g k (fun v => plain g (wlock_range t (v_map v) off len s))
    | AUnlock k => with_map g k (fun v => plain g (wunlock t (v_map v) s))
    | AUnlockRange k off len => with_map g k (fun v => plain g (wunlock_range t (v_map v) off len s))
    | ARing hint =>
      let '(r, s') := win_ring_new t hint s in
      finish r same_error (fun x => (GThing (g_cnt g), g_add g s' (TRing x (w_next (n_w s))))) (g_set g s')
    | ADrop k => match g_tab g k with
                 | Some x =>
                   let '(r, s') := match x with TMap v => wdrop t (v_map v) s | TRing r _ => win_ring_drop t r s end in
                   finish r same_error (fun _ => (GNone, g_put g s' k None)) (g_put g s' k None)
                 | None => (Ret GNone, g)
                 end
    | AOther e => (Ret GNone, g_set g (wothers e s))
    end.

  Fixpoint act_run (h : list act) (g : prog) : prog :=
    match h with [] => g | a :: h => act_run h (snd (act_step a g)) end.
End Hist.

(** Nothing held yet. *)
Definition holds_nothing (s : win) : prog := {| g_s := s; g_tab := fun _ => None; g_cnt := 0 |}.
