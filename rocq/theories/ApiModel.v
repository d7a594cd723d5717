(** A program using the mapping API: any history of calls, on any number of
    files and maps, against any behaviour of the kernel and of the other
    processes.

    [l_map] and [l_mut] are what the program holds (a [Map] or a [MapMut]);
    [l_obj], [l_off], [l_prot], [l_wr] only record how the map was made (the
    object and offset it was asked to show, the protection, whether the file
    was open for writing).  A map is named by the number of maps made before
    it.  A call that Rust's types rule out (on a map that does not exist, a
    store through a [Map], ...) does nothing. *)
From Verif Require Import Base ErrorModel OsModel OthersModel MapModel.

Record live := { l_map : mapping; l_mut : bool; l_obj : Z; l_off : Z; l_prot : protect; l_wr : bool }.
Record api := { a_w : world; a_live : Z -> option live; a_cnt : Z }.

Inductive call :=
| COpen (mut : bool) (o : options) (path : Z)
| CMap (mut : bool) (o : options) (fd : Z)
| CAlloc (mut : bool) (o : options)
| CClose (fd : Z)
| CToMut (k : Z)
| CToMap (k : Z)
| CGet (k i : Z)
| CSet (k i : Z) (b : byte)
| CFlush (k : Z) (mode : flush_mode)
| CFlushRange (k off len : Z) (mode : flush_mode)
| CAdvise (k : Z) (adv : advise_kind)
| CAdviseRange (k off len : Z) (adv : advise_kind)
| CLock (k : Z)
| CLockRange (k off len : Z)
| CUnlock (k : Z)
| CUnlockRange (k off len : Z)
| CDrop (k : Z)
| CWriteBack (o pg : Z)    (* not a call: the kernel writes a page to storage *)
| COther (e : other).      (* not a call: another process does something to a file *)

Definition set_w (a : api) (w : world) : api := {| a_w := w; a_live := a_live a; a_cnt := a_cnt a |}.
Definition add_live (a : api) (w : world) (l : live) : api :=
  {| a_w := w; a_live := put (a_live a) (a_cnt a) (Some l); a_cnt := a_cnt a + 1 |}.
Definition put_live (a : api) (w : world) (k : Z) (x : option live) : api :=
  {| a_w := w; a_live := put (a_live a) k x; a_cnt := a_cnt a |}.
Definition set_mut (l : live) (b : bool) : live :=
  {| l_map := l_map l; l_mut := b; l_obj := l_obj l; l_off := l_off l; l_prot := l_prot l; l_wr := l_wr l |}.

(** What the program sees of a call: nothing, a number (a byte, a descriptor)
    or a map's number. *)
Inductive seen := SNone | SByte (b : byte) | SMap (k : Z) | SFile (m : option Z) (fd : Z).

Section Api.
  Variable t : target.

  Definition fd_object (w : world) (fd : Z) : Z := match w_fd w fd with Some f => fd_obj f | None => 0 end.
  Definition fd_writes (w : world) (fd : Z) : bool := match w_fd w fd with Some f => fd_w f | None => false end.

  (** Forget the outcome's type. *)
  Definition unit_call (a : api) (x : out error unit * world) : out error seen * api :=
    let '(r, w) := x in
    (match r with Ret _ => Ret SNone | Err e => Err e | Panic => Panic | Fault => Fault | Blocked => Blocked end, set_w a w).

  Definition with_map (a : api) (k : Z) (f : live -> out error seen * api) : out error seen * api :=
    match a_live a k with Some l => f l | None => (Ret SNone, a) end.

  Definition file_live (mut : bool) (o : options) (w : world) (fd : Z) (m : mapping) : live :=
    {| l_map := m; l_mut := mut; l_obj := fd_object w fd; l_off := op_offset o; l_prot := op_protect o; l_wr := fd_writes w fd |}.

  Definition step (c : call) (a : api) : out error seen * api :=
    let w := a_w a in
    match c with
    | COpen mut o path =>
      match open_if t o path w with
      | (Ret (Some m, fd), w') => (Ret (SFile (Some (a_cnt a)) fd), add_live a w' (file_live mut o w' fd m))
      | (Ret (None, fd), w') => (Ret (SFile None fd), set_w a w')
      | (Err e, w') => (Err e, set_w a w')
      | (Panic, w') => (Panic, set_w a w')
      | (Fault, w') => (Fault, set_w a w')
      | (Blocked, w') => (Blocked, set_w a w')
      end
    | CMap mut o fd =>
      match map_if t o fd w with
      | (Ret (Some m), w') => (Ret (SMap (a_cnt a)), add_live a w' (file_live mut o w' fd m))
      | (Ret None, w') => (Ret SNone, set_w a w')
      | (Err e, w') => (Err e, set_w a w')
      | (Panic, w') => (Panic, set_w a w')
      | (Fault, w') => (Fault, set_w a w')
      | (Blocked, w') => (Blocked, set_w a w')
      end
    | CAlloc mut o =>
      match alloc t o w with
      | (Ret m, w') => (Ret (SMap (a_cnt a)), add_live a w'
          {| l_map := m; l_mut := mut; l_obj := w_next w; l_off := op_offset o mod t_page t; l_prot := op_protect o; l_wr := true |})
      | (Err e, w') => (Err e, set_w a w')
      | (Panic, w') => (Panic, set_w a w')
      | (Fault, w') => (Fault, set_w a w')
      | (Blocked, w') => (Blocked, set_w a w')
      end
    | CClose fd => (Ret SNone, set_w a (snd (sys_close fd w)))
    | CToMut k => with_map a k (fun l =>
        if l_mut l then (Ret SNone, a) else
        match into_map_mut t (l_map l) w with
        | (Ret m, w') => (Ret SNone, put_live a w' k (Some (set_mut l true)))
        | (Err (e, m), w') => (Err e, set_w a w')
        | (Panic, w') => (Panic, set_w a w')
        | (Fault, w') => (Fault, set_w a w')
        | (Blocked, w') => (Blocked, set_w a w')
        end)
    | CToMap k => with_map a k (fun l =>
        if negb (l_mut l) then (Ret SNone, a) else
        match into_map t (l_map l) w with
        | (Ret m, w') => (Ret SNone, put_live a w' k (Some (set_mut l false)))
        | (Err (e, m), w') => (Err e, set_w a w')
        | (Panic, w') => (Panic, set_w a w')
        | (Fault, w') => (Fault, set_w a w')
        | (Blocked, w') => (Blocked, set_w a w')
        end)
    | CGet k i => with_map a k (fun l =>
        match map_get t (l_map l) i w with
        | (Ret b, w') => (Ret (SByte b), set_w a w')
        | (Err e, w') => (Err e, set_w a w')
        | (Panic, w') => (Panic, set_w a w')
        | (Fault, w') => (Fault, set_w a w')
        | (Blocked, w') => (Blocked, set_w a w')
        end)
    | CSet k i b => with_map a k (fun l =>
        if l_mut l then unit_call a (map_set t (l_map l) i b w) else (Ret SNone, a))
    | CFlush k mode => with_map a k (fun l =>
        if l_mut l then unit_call a (flush t (l_map l) mode w) else (Ret SNone, a))
    | CFlushRange k off len mode => with_map a k (fun l =>
        if l_mut l then unit_call a (flush_range t (l_map l) off len mode w) else (Ret SNone, a))
    | CAdvise k adv => with_map a k (fun l => unit_call a (advise t (l_map l) adv w))
    | CAdviseRange k off len adv => with_map a k (fun l => unit_call a (advise_range t (l_map l) off len adv w))
    | CLock k => with_map a k (fun l => unit_call a (lock t (l_map l) w))
    | CLockRange k off len => with_map a k (fun l => unit_call a (lock_range t (l_map l) off len w))
    | CUnlock k => with_map a k (fun l => unit_call a (unlock t (l_map l) w))
    | CUnlockRange k off len => with_map a k (fun l => unit_call a (unlock_range t (l_map l) off len w))
    | CDrop k => with_map a k (fun l =>
        match drop_map t (l_map l) w with
        | (Ret _, w') => (Ret SNone, put_live a w' k None)
        | (Err e, w') => (Err e, put_live a w' k None)
        | (Panic, w') => (Panic, put_live a w' k None)
        | (Fault, w') => (Fault, put_live a w' k None)
        | (Blocked, w') => (Blocked, put_live a w' k None)
        end)
    | CWriteBack o pg => (Ret SNone, set_w a (writeback t o pg w))
    | COther e => (Ret SNone, set_w a (others t e w))
    end.

  (** A history, and the states passed through after each call. *)
  Fixpoint run (h : list call) (a : api) : api :=
    match h with [] => a | c :: h => run h (snd (step c a)) end.
  Fixpoint states (h : list call) (a : api) : list api :=
    match h with [] => [a] | c :: h => a :: states h (snd (step c a)) end.
End Api.

(** No map held yet. *)
Definition no_maps (w : world) : api := {| a_w := w; a_live := fun _ => None; a_cnt := 0 |}.
