(** Model of the lazily initialised page and allocation sizes
    (src/lib.rs:240-283), called by any number of threads.

    The two cells are [AtomicUsize] accessed with [Ordering::Relaxed].  A cell
    is the initial value 0 plus the list of all values stored so far; a
    relaxed load may return any of them, in any order, except that a thread
    that has already observed a stored value of that cell (its own store or a
    value it loaded) can no longer observe the initial one: per-location
    coherence, the initial value being first in the modification order.  This
    admits every behaviour C11 allows for these cells and more.

    [system_info] (src/os/unix/mod.rs:32-35, src/os/windows.rs:92-99) is taken
    to report the same pair every time.  Return values are [u32 as usize],
    the identity on both word widths. *)
From Verif Require Import Base.

Inductive call := PageSize | AllocSize.

Record cells := { c_page : list Z; c_alloc : list Z }.

(** Where a thread is: between calls, before [os::system_info()]
    (src/lib.rs:279), before the first and the second store (280, 281). *)
Inductive pc :=
| Idle
| AtInfo (c : call)
| AtStorePage (c : call) (page alloc : Z)
| AtStoreAlloc (c : call) (page alloc : Z).

(** [th_todo] are the calls still to make, [th_res] the calls made with the
    value returned and the number of steps taken, [th_cur] the steps of the
    running call, [th_info] the number of [system_info] calls made,
    [th_seen_*] whether a stored value has been observed. *)
Record thread := {
  th_todo : list call;
  th_pc : pc;
  th_cur : nat;
  th_res : list (call * Z * nat);
  th_info : nat;
  th_seen_page : bool;
  th_seen_alloc : bool
}.

(** What a relaxed load is made to return: the initial value or the k-th
    stored one. *)
Inductive choice := Initial | Stored (k : nat).

Definition load (stored : list Z) (seen : bool) (ch : choice) : option (Z * bool) :=
  match ch with
  | Initial => if seen then None else Some (0, false)
  | Stored k => match nth_error stored k with Some v => Some (v, true) | None => None end
  end.

Definition finish (th : thread) (c : call) (v : Z) : thread :=
  {| th_todo := th_todo th; th_pc := Idle; th_cur := 0;
     th_res := th_res th ++ [(c, v, S (th_cur th))]; th_info := th_info th;
     th_seen_page := th_seen_page th; th_seen_alloc := th_seen_alloc th |}.
Definition goto (th : thread) (p : pc) : thread :=
  {| th_todo := th_todo th; th_pc := p; th_cur := S (th_cur th); th_res := th_res th;
     th_info := th_info th; th_seen_page := th_seen_page th; th_seen_alloc := th_seen_alloc th |}.
Definition set_todo (th : thread) (l : list call) : thread :=
  {| th_todo := l; th_pc := th_pc th; th_cur := th_cur th; th_res := th_res th;
     th_info := th_info th; th_seen_page := th_seen_page th; th_seen_alloc := th_seen_alloc th |}.
Definition set_seen (th : thread) (p a : bool) : thread :=
  {| th_todo := th_todo th; th_pc := th_pc th; th_cur := th_cur th; th_res := th_res th;
     th_info := th_info th; th_seen_page := p; th_seen_alloc := a |}.
Definition count_info (th : thread) : thread :=
  {| th_todo := th_todo th; th_pc := th_pc th; th_cur := th_cur th; th_res := th_res th;
     th_info := S (th_info th); th_seen_page := th_seen_page th; th_seen_alloc := th_seen_alloc th |}.

(** One step of one thread; [None] when the step is not possible.
    src/lib.rs:240-247 (page_size), 265-272 (allocation_size), 278-283
    (load_system_info). *)
Definition thread_step (t : target) (ch : choice) (m : cells) (th : thread) : option (cells * thread) :=
  match th_pc th with
  | Idle =>
    match th_todo th with
    | [] => None
    | PageSize :: rest =>
      match load (c_page m) (th_seen_page th) ch with
      | None => None
      | Some (size, seen) =>
        let th := set_seen (set_todo th rest) seen (th_seen_alloc th) in
        if size =? 0 then Some (m, goto th (AtInfo PageSize)) else Some (m, finish th PageSize size)
      end
    | AllocSize :: rest =>
      match load (c_alloc m) (th_seen_alloc th) ch with
      | None => None
      | Some (size, seen) =>
        let th := set_seen (set_todo th rest) (th_seen_page th) seen in
        if size =? 0 then Some (m, goto th (AtInfo AllocSize)) else Some (m, finish th AllocSize size)
      end
    end
  | AtInfo c => Some (m, goto (count_info th) (AtStorePage c (as_u32 (t_page t)) (as_u32 (t_alloc t))))
  | AtStorePage c page alloc =>
    Some ({| c_page := c_page m ++ [page]; c_alloc := c_alloc m |},
          goto (set_seen th true (th_seen_alloc th)) (AtStoreAlloc c page alloc))
  | AtStoreAlloc c page alloc =>
    Some ({| c_page := c_page m; c_alloc := c_alloc m ++ [alloc] |},
          finish (set_seen th (th_seen_page th) true) c
            (match c with PageSize => page | AllocSize => alloc end))
  end.

(** The whole program: threads numbered by [nat], arbitrarily many. *)
Record sys := { s_mem : cells; s_th : nat -> thread }.

Definition sys_step (t : target) (i : nat) (ch : choice) (s : sys) : option sys :=
  match thread_step t ch (s_mem s) (s_th s i) with
  | None => None
  | Some (m, th) => Some {| s_mem := m; s_th := fun j => if Nat.eqb j i then th else s_th s j |}
  end.

Definition sys_init (prog : nat -> list call) : sys :=
  {| s_mem := {| c_page := []; c_alloc := [] |};
     s_th := fun i => {| th_todo := prog i; th_pc := Idle; th_cur := 0; th_res := []; th_info := 0;
                         th_seen_page := false; th_seen_alloc := false |} |}.

(** An execution: any interleaving, any load results; impossible steps are
    not taken. *)
Fixpoint sys_run (t : target) (sched : list (nat * choice)) (s : sys) : option sys :=
  match sched with
  | [] => Some s
  | (i, ch) :: sched' =>
    match sys_step t i ch s with
    | None => None
    | Some s' => sys_run t sched' s'
    end
  end.
