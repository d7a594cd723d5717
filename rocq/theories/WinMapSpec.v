(** Specification side of the mapping API on Windows and of histories of maps
    and rings. *)
From Verif Require ApiSpec.
From Verif Require Import Base ErrorModel OsModel MapModel MapSpec RingMapModel WinModel WinSpec OthersModel WinMapModel.

(** The same target with the granularity of a POSIX system: what depends on
    pages only is specified there. *)
Definition as_posix (t : target) : target :=
  {| t_bits := t_bits t; t_checks := t_checks t; t_page := t_page t; t_alloc := t_page t |}.

(** The allocation unit a map starts in. *)
Definition map_base (t : target) (m : mapping) : Z := t_alloc t * (m_ptr m / t_alloc t).

(** An object that can still be opened or resized: it has a name or is open. *)
Definition named (w : world) (o : Z) : Prop :=
  (exists fd f, w_fd w fd = Some f /\ fd_obj f = o) \/ exists path, w_fs w path = Some o.

(** The pages of a view of [n] pages at [a]. *)
Definition in_view (t : target) (a n p : Z) : Prop := a / t_page t <= p < a / t_page t + n.

(** States of the address space that can occur: views are aligned, inside the
    usable range, mapped, and apart from each other. *)
Record space_ok (t : target) (s : win) : Prop := {
  so_view : forall a n, n_view s a = Some n -> 0 < n /\ a mod t_alloc t = 0 /\ t_page t <= a /\
     a + t_page t * n <= 2 ^ t_bits t - t_page t;
  so_mapped : forall a n p, n_view s a = Some n -> in_view t a n p -> exists e, w_vm (n_w s) p = Some e;
  so_apart : forall a n b m p, n_view s a = Some n -> n_view s b = Some m -> in_view t a n p -> in_view t b m p -> a = b
}.

(** ** Things held *)

(** Address and size of what can be read through a thing. *)
Definition addr_of (x : thing) : Z := match x with TMap v => m_ptr (v_map v) | TRing r _ => ra_ptr r end.
Definition size_of (x : thing) : Z := match x with TMap v => m_len (v_map v) | TRing r _ => 2 * ra_len r end.
(** Its memory is its own: no other thing, no file shows it. *)
Definition private_thing (x : thing) : bool := match x with TMap v => v_anon v | TRing _ _ => true end.
(** The calls after which other bytes may be read through thing [k]: stores
    through it and its end. *)
Definition touches (a : act) (k : Z) : Prop := match a with ASet k' _ _ | ADrop k' => k' = k | _ => False end.
(** The thing stays the same but for conversions. *)
Definition same_thing (x x' : thing) : Prop :=
  match x, x' with
  | TMap v, TMap v' => v_map v' = v_map v /\ v_obj v' = v_obj v /\ v_off v' = v_off v /\ v_prot v' = v_prot v /\ v_anon v' = v_anon v
  | TRing r o, TRing r' o' => r' = r /\ o' = o
  | _, _ => False
  end.
(** The base addresses of its views. *)
Definition bases_of (t : target) (x : thing) (a : Z) : Prop :=
  match x with
  | TMap v => a = map_base t (v_map v)
  | TRing r _ => a = ra_ptr r \/ a = ra_ptr r + ra_len r
  end.

(** The additions inside [alloc] stay below the word size. *)
Definition walloc_fits (t : target) (o : options) : Prop :=
  let off := op_offset o mod t_page t in
  match op_len o with
  | ExtEnd => off + 1 + t_alloc t < 2 ^ t_bits t
  | ExtMin l => off + l + t_alloc t < 2 ^ t_bits t
  | ExtExact l | ExtMax l => off + l < 2 ^ t_bits t
  end.
(** The length promised for an anonymous map (src/lib.rs:211-223,
    src/map.rs:745-867): the rest of the allocation unit(s) or exactly [l]. *)
Definition walloc_len (t : target) (o : options) (n : Z) : Prop :=
  let off := op_offset o mod t_page t in
  match op_len o with
  | ExtEnd => n = t_alloc t - off
  | ExtMin l => l <= n < l + t_alloc t /\ (off + n) mod t_alloc t = 0
  | ExtExact l | ExtMax l => n = l
  end.

(** A map of [m_len m] bytes of object [o] from byte [off] on was made: the
    only change to the address space is one view of [V] bytes, which starts at
    an allocation unit of the object and of the address space. *)
Record map_made (t : target) (s s' : win) (m : mapping) (o off V : Z) (p : protect) : Prop := {
  md_view : view_of t s s' o (off - off mod t_alloc t) V p (map_base t m);
  md_ptr : m_ptr m = map_base t m + off mod t_alloc t;
  md_len : 0 <= m_len m;
  md_off : 0 <= off;
  md_fits : off mod t_alloc t + m_len m <= V
}.

(** Arguments are machine words and indices of bytes. *)
Definition act_ok (t : target) (a : act) : Prop :=
  match a with
  | AOpen _ o _ | AMap _ o _ => options_ok t o
  | AAlloc _ o => options_ok t o /\ (walloc_fits t o \/ t_checks t = true)
  | ARing hint => is_usize t hint
  | AOther e => ApiSpec.other_ok e
  | _ => True
  end.

(** A machine on which nothing is mapped yet. *)
Record fresh_start (s : win) : Prop := {
  fs_wf : wf (n_w s);
  fs_vm : forall p, w_vm (n_w s) p = None;
  fs_view : forall a, n_view s a = None
}.

(** [reached t ok g]: [g] is the state of a program after any history of calls
    meeting [ok], from any fresh start. *)
Definition reached_win (t : target) (ok : act -> Prop) (g : prog) : Prop :=
  exists s h, fresh_start s /\ Forall (fun a => act_ok t a /\ ok a) h /\ g = act_run t h (holds_nothing s).

(** ** Nothing left behind *)

(** No release was refused between the two states. *)
Definition released (s s' : win) : Prop := exists l, calls s s' l /\ ~ failed_release l.
(** A map that is dropped is not empty. *)
Definition drops_filled (a : act) (g : prog) : Prop := forall k v, a = ADrop k -> g_tab g k = Some (TMap v) -> 0 < m_len (v_map v).
(** Every view belongs to a thing held, every mapped page to a view. *)
Record all_held (t : target) (g : prog) : Prop := {
  xt_view : forall a n, n_view (g_s g) a = Some n -> exists k x, g_tab g k = Some x /\ bases_of t x a;
  xt_page : forall p e, w_vm (n_w (g_s g)) p = Some e -> exists a n, n_view (g_s g) a = Some n /\ in_view t a n p
}.
Definition same_kernel (s s' : win) : Prop := (forall a, n_resv s' a = n_resv s a) /\ (forall h, n_sec s' h = n_sec s h).
(** A history in which neither happens. *)
Fixpoint tidy_run (t : target) (h : list act) (g : prog) : Prop :=
  match h with
  | [] => True
  | a :: h => let g' := snd (act_step t a g) in
              act_ok t a /\ released (g_s g) (g_s g') /\ drops_filled a g /\ tidy_run t h g'
  end.

(** ** Reading and storing through things *)

(** What reading byte [i] through thing [k] gives. *)
Definition reading (t : target) (g : prog) (k i : Z) : out error got := fst (act_step t (AGet k i) g).
(** Bytes [i] and [j] of the thing are the same cell of memory. *)
Definition same_cell (x : thing) (i j : Z) : Prop :=
  match x with TMap _ => j = i | TRing r _ => j mod ra_len r = i mod ra_len r end.
(** Storing through it is possible: a [MapMut] made writable, or a ring. *)
Definition can_store (x : thing) : bool := match x with TMap v => v_mut v && v_w v | TRing _ _ => true end.
(** The byte of the file shown there exists: the file was not shortened. *)
Definition in_object (g : prog) (x : thing) (i : Z) : Prop :=
  match x with TMap v => v_off v + i < o_size (w_obj (n_w (g_s g)) (v_obj v)) | TRing _ _ => True end.

(** [flushed g g' r v fd off n]: what a synchronous flush of [n] bytes from
    [off] on promises. *)
Definition flushed (g g' : prog) (r : out error got) (v : held) (fd off n : Z) : Prop :=
  g_tab g' = g_tab g /\ memory_kept (g_s g) (g_s g') /\
  match r with
  | Ret _ => exists f, w_fd (n_w (g_s g)) fd = Some f /\ fd_w f = true /\
      (fd_obj f = v_obj v -> forall i, off <= i < off + n ->
         o_disk (w_obj (n_w (g_s g')) (v_obj v)) (v_off v + i) = o_data (w_obj (n_w (g_s g')) (v_obj v)) (v_off v + i)) /\
      (forall o, o <> fd_obj f -> w_obj (n_w (g_s g')) o = w_obj (n_w (g_s g)) o)
  | Err e => (forall o, w_obj (n_w (g_s g')) o = w_obj (n_w (g_s g)) o) /\ e_op e = OpFlush
  | _ => False
  end.

(** ** Calls on part of a map *)

(** The calls on bytes [off .. off+len) of a map: thing, offset, length,
    operation; whether only [MapMut] has the method. *)
Definition act_range (a : act) : option (Z * Z * Z * operation * bool) :=
  match a with
  | AFlushRange k _ off len _ => Some (k, off, len, OpFlush, true)
  | AAdviseRange k off len _ => Some (k, off, len, OpAdvise, false)
  | ALockRange k off len => Some (k, off, len, OpLock, false)
  | AUnlockRange k off len => Some (k, off, len, OpUnlock, false)
  | _ => None
  end.
(** The (un)lock calls on bytes [off .. off+len) of a map of length [n]:
    thing, offset, length, operation, pinned afterwards. *)
Definition act_lock (n : Z) (a : act) : option (Z * Z * Z * operation * bool) :=
  match a with
  | ALock k => Some (k, 0, n, OpLock, true)
  | AUnlock k => Some (k, 0, n, OpUnlock, false)
  | ALockRange k off len => Some (k, off, len, OpLock, true)
  | AUnlockRange k off len => Some (k, off, len, OpUnlock, false)
  | _ => None
  end.
(** The advise calls on bytes [off .. off+len) of a map of length [n]. *)
Definition act_advise (n : Z) (a : act) : option (Z * Z * Z) :=
  match a with
  | AAdvise k _ => Some (k, 0, n)
  | AAdviseRange k off len _ => Some (k, off, len)
  | _ => None
  end.
(** The operations an error of a call may name. *)
Definition act_error (a : act) : list operation :=
  match a with
  | AOpen _ _ _ | AMap _ _ _ => [MapFile; MapFileHandle; MapFileView]
  | AAlloc _ _ => [MapAnonymousHandle; MapAnonymousView]
  | AToMut _ | AToMap _ => [OpProtect]
  | AFlush _ _ _ | AFlushRange _ _ _ _ _ => [OpFlush]
  | AAdvise _ _ => []
  | AAdviseRange _ _ _ _ => [OpAdvise]
  | ALock _ | ALockRange _ _ _ => [OpLock]
  | AUnlock _ | AUnlockRange _ _ _ => [OpUnlock]
  | ARing _ => [RingAllocate; RingPrimary; RingSecondary]
  | AClose _ | AGet _ _ | ASet _ _ _ | ADrop _ | AOther _ => []
  end.
