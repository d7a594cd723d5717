(** The operating system under src/os/unix and src/map.rs: a POSIX-like
    kernel with pages, memory objects, file descriptors and a file system.

    Nothing here is code of the crate; it is the assumed behaviour of the
    kernel, written down from the POSIX/Linux manual pages.  What the kernel
    decides freely (the address of a new mapping, descriptor numbers, whether
    a call is refused and with which errno) is read from a list of answers
    [w_orc] that every theorem quantifies over.

    What other processes do between two calls of the program is in
    OthersModel.v.

    Simplifications: nothing happens in the middle of a call; a page of a
    mapping is the unit of protection, locking and copying; a system call
    is atomic and a refused call changes nothing; loads past the end of the
    file but inside its last page read the cached tail ([o_data] there), stores
    there are lost. *)
From Verif Require Import Base.

(** Content cached in memory ([o_data]) and content on storage ([o_disk]) of a
    file, a memory file or an anonymous region. *)
Record obj := { o_size : Z; o_data : Z -> byte; o_disk : Z -> byte }.

(** A page-table entry: page [p_idx] of object [p_obj]; permissions; shared or
    private; whether the mapping may be made writable ([p_maxw]); the private
    copy made by the first store through a private mapping; pinned or not. *)
Record pte := {
  p_obj : Z; p_idx : Z;
  p_r : bool; p_w : bool; p_x : bool;
  p_shared : bool; p_maxw : bool;
  p_copy : option (Z -> byte);
  p_lock : bool
}.

Record fdent := { fd_obj : Z; fd_w : bool }.

(** The kernel's free decisions, in the order of the system calls. *)
Inductive answer := Refuse (errno : Z) | Grant (a : Z).

Record world := {
  w_vm : Z -> option pte;      (* page number -> entry *)
  w_obj : Z -> obj;
  w_next : Z;                  (* objects numbered from here do not exist yet *)
  w_fd : Z -> option fdent;
  w_fs : Z -> option Z;        (* path -> object *)
  w_orc : list answer
}.

Definition set_vm (w : world) f := {| w_vm := f; w_obj := w_obj w; w_next := w_next w; w_fd := w_fd w; w_fs := w_fs w; w_orc := w_orc w |}.
Definition set_obj (w : world) f := {| w_vm := w_vm w; w_obj := f; w_next := w_next w; w_fd := w_fd w; w_fs := w_fs w; w_orc := w_orc w |}.
Definition set_next (w : world) n := {| w_vm := w_vm w; w_obj := w_obj w; w_next := n; w_fd := w_fd w; w_fs := w_fs w; w_orc := w_orc w |}.
Definition set_fd (w : world) f := {| w_vm := w_vm w; w_obj := w_obj w; w_next := w_next w; w_fd := f; w_fs := w_fs w; w_orc := w_orc w |}.
Definition set_fs (w : world) f := {| w_vm := w_vm w; w_obj := w_obj w; w_next := w_next w; w_fd := w_fd w; w_fs := f; w_orc := w_orc w |}.
Definition set_orc (w : world) l := {| w_vm := w_vm w; w_obj := w_obj w; w_next := w_next w; w_fd := w_fd w; w_fs := w_fs w; w_orc := l |}.

(** Pointwise update of the tables. *)
Definition put {A} (f : Z -> A) (i : Z) (x : A) : Z -> A := fun j => if j =? i then x else f j.

(** Programs over the world. *)
Definition ST (E A : Type) := world -> out E A * world.
Definition sret {E A} (a : A) : ST E A := fun w => (Ret a, w).
Definition sout {E A} (x : out E A) : ST E A := fun w => (x, w).
Definition sbind {E A B} (m : ST E A) (k : A -> ST E B) : ST E B :=
  fun w => match m w with
           | (Ret a, w') => k a w'
           | (Err e, w') => (Err e, w')
           | (Panic, w') => (Panic, w')
           | (Fault, w') => (Fault, w')
           | (Blocked, w') => (Blocked, w')
           end.
Notation "'do*' x <- e ; k" := (sbind e (fun x => k))
  (at level 200, x pattern, e at level 100, k at level 200, right associativity).

(** Errno values used (Linux numbering). *)
Definition ENOENT := 2.
Definition EBADF := 9.
Definition ENOMEM := 12.
Definition EACCES := 13.
Definition EEXIST := 17.
Definition EINVAL := 22.
Definition EMFILE := 24.

(** Consume one answer of the kernel. *)
Definition ask {A} (k : Z -> ST Z A) : ST Z A := fun w =>
  match w_orc w with
  | [] => (Err ENOMEM, w)
  | Refuse e :: o => (Err e, set_orc w o)
  | Grant a :: o => k a (set_orc w o)
  end.

Section Kernel.
  Variable t : target.
  Let P := t_page t.

  (** Number of pages covering [len] bytes. *)
  Definition npages (len : Z) : Z := (len + P - 1) / P.

  (** The page numbers [first .. first+n-1]. *)
  Definition page_seq (first n : Z) : list Z := map (fun k => first + Z.of_nat k) (seq 0 (Z.to_nat n)).

  Definition in_pages (first n p : Z) : bool := (first <=? p) && (p <? first + n).

  (** Address ranges a process may use: not page 0, page aligned, ending
      before the last page of the address space. *)
  Definition range_ok (a len : Z) : bool :=
    (P <=? a) && (a mod P =? 0) && (a + P * npages len <=? 2 ^ t_bits t - P).

  Definition free_range (w : world) (first n : Z) : bool :=
    forallb (fun p => match w_vm w p with None => true | Some _ => false end) (page_seq first n).
  Definition mapped_range (w : world) (first n : Z) : bool :=
    forallb (fun p => match w_vm w p with None => false | Some _ => true end) (page_seq first n).

  (** ** mmap(2) *)
  Record prot := { pr_r : bool; pr_w : bool; pr_x : bool }.

  (** The object a mapping is made of and whether it may be written:
      anonymous memory is a fresh zero-filled object. *)
  Definition backing (shared anon : bool) (pw : bool) (fd len : Z) (w : world) : out Z (Z * bool * world) :=
    if anon then
      Ret (w_next w, true,
           set_next (set_obj w (put (w_obj w) (w_next w)
             {| o_size := P * npages len; o_data := fun _ => 0; o_disk := fun _ => 0 |})) (w_next w + 1))
    else match w_fd w fd with
         | None => Err EBADF
         | Some f => if shared && pw && negb (fd_w f) then Err EACCES
                     else Ret (fd_obj f, negb shared || fd_w f, w)
         end.

  Definition entry (o idx : Z) (pr : prot) (shared maxw : bool) : pte :=
    {| p_obj := o; p_idx := idx; p_r := pr_r pr; p_w := pr_w pr; p_x := pr_x pr;
       p_shared := shared; p_maxw := maxw; p_copy := None; p_lock := false |}.

  (** [fixed] = MAP_FIXED at [addr]; otherwise the kernel picks the address. *)
  Definition sys_mmap (fixed : bool) (addr len : Z) (pr : prot) (shared anon : bool) (fd off : Z) : ST Z Z :=
    ask (fun a w =>
      if len <=? 0 then (Err EINVAL, w)
      else if (off <? 0) || negb (off mod P =? 0) then (Err EINVAL, w)
      else
        let base := if fixed then addr else a in
        let n := npages len in
        if negb (range_ok base len) then (Err (if fixed then EINVAL else ENOMEM), w)
        else if negb fixed && negb (free_range w (base / P) n) then (Err ENOMEM, w)
        else match backing shared anon (pr_w pr) fd len w with
             | Ret (o, maxw, w1) =>
               (Ret base, set_vm w1 (fun p =>
                  if in_pages (base / P) n p then Some (entry o (off / P + (p - base / P)) pr shared maxw)
                  else w_vm w1 p))
             | Err e => (Err e, w)
             | Panic => (Panic, w)
             | Fault => (Fault, w)
             | Blocked => (Blocked, w)
             end).

  (** ** munmap(2): whatever is mapped in the range goes away. *)
  Definition sys_munmap (addr len : Z) : ST Z unit :=
    ask (fun _ w =>
      if (len <=? 0) || negb (addr mod P =? 0) then (Err EINVAL, w)
      else (Ret tt, set_vm w (fun p => if in_pages (addr / P) (npages len) p then None else w_vm w p))).

  (** Change every entry of a mapped range. *)
  Definition map_range (f : pte -> pte) (first n : Z) (w : world) : world :=
    set_vm w (fun p => if in_pages first n p then option_map f (w_vm w p) else w_vm w p).

  Definition on_range (addr len : Z) (ok : pte -> out Z unit) (f : pte -> pte) : ST Z unit :=
    ask (fun _ w =>
      if negb (addr mod P =? 0) then (Err EINVAL, w)
      else
        let first := addr / P in let n := npages len in
        if negb (mapped_range w first n) then (Err ENOMEM, w)
        else match fold_left (fun acc p => match acc, w_vm w p with
                                           | Ret _, Some e => ok e
                                           | _, _ => acc
                                           end) (page_seq first n) (Ret tt) with
             | Ret _ => (Ret tt, map_range f first n w)
             | Err e => (Err e, w)
             | _ => (Err EINVAL, w)
             end).

  (** ** mprotect(2) *)
  Definition set_prot (pr : prot) (e : pte) : pte :=
    {| p_obj := p_obj e; p_idx := p_idx e; p_r := pr_r pr; p_w := pr_w pr; p_x := pr_x pr;
       p_shared := p_shared e; p_maxw := p_maxw e; p_copy := p_copy e; p_lock := p_lock e |}.
  Definition sys_mprotect (addr len : Z) (pr : prot) : ST Z unit :=
    on_range addr len (fun e => if pr_w pr && negb (p_maxw e) then Err EACCES else Ret tt) (set_prot pr).

  (** ** mlock(2), munlock(2) *)
  Definition set_lock (b : bool) (e : pte) : pte :=
    {| p_obj := p_obj e; p_idx := p_idx e; p_r := p_r e; p_w := p_w e; p_x := p_x e;
       p_shared := p_shared e; p_maxw := p_maxw e; p_copy := p_copy e; p_lock := b |}.
  Definition sys_mlock (addr len : Z) : ST Z unit := on_range addr len (fun _ => Ret tt) (set_lock true).
  Definition sys_munlock (addr len : Z) : ST Z unit := on_range addr len (fun _ => Ret tt) (set_lock false).

  (** ** madvise(2): MADV_DONTNEED drops the private copies (the next access
      sees the object again) and is refused on pinned pages; the other values
      used by the crate change nothing. *)
  Definition set_copy (c : option (Z -> byte)) (e : pte) : pte :=
    {| p_obj := p_obj e; p_idx := p_idx e; p_r := p_r e; p_w := p_w e; p_x := p_x e;
       p_shared := p_shared e; p_maxw := p_maxw e; p_copy := c; p_lock := p_lock e |}.
  Definition sys_madvise (addr len : Z) (dontneed : bool) : ST Z unit :=
    on_range addr len (fun e => if dontneed && p_lock e then Err EINVAL else Ret tt)
      (fun e => if dontneed then set_copy None e else e).

  (** ** msync(2): MS_SYNC writes the shared pages of the range to storage;
      MS_ASYNC only schedules it. *)
  Definition syncs (w : world) (first n o i : Z) : bool :=
    existsb (fun p => match w_vm w p with
                      | Some e => p_shared e && (p_obj e =? o) && (p_idx e =? i / P)
                      | None => false
                      end) (page_seq first n).
  Definition sys_msync (addr len : Z) (sync : bool) : ST Z unit :=
    ask (fun _ w =>
      if negb (addr mod P =? 0) then (Err EINVAL, w)
      else
        let first := addr / P in let n := npages len in
        if negb (mapped_range w first n) then (Err ENOMEM, w)
        else (Ret tt, if sync then set_obj w (fun o =>
                let x := w_obj w o in
                {| o_size := o_size x; o_data := o_data x;
                   o_disk := fun i => if syncs w first n o i then o_data x i else o_disk x i |}) else w)).

  (** The kernel writes a page back on its own. *)
  Definition writeback (o pg : Z) (w : world) : world :=
    let x := w_obj w o in
    set_obj w (put (w_obj w) o
      {| o_size := o_size x; o_data := o_data x;
         o_disk := fun i => if i / P =? pg then o_data x i else o_disk x i |}).

  (** ** Length changes: kept bytes stay, everything else reads 0; private
      copies of pages that fall behind the new end are dropped. *)
  Definition clip (keep : Z) (f : Z -> byte) : Z -> byte := fun i => if i <? keep then f i else 0.
  Definition resize_obj (o sz : Z) (w : world) : world :=
    let x := w_obj w o in
    let keep := Z.min (o_size x) sz in
    let w1 := set_obj w (put (w_obj w) o
      {| o_size := sz; o_data := clip keep (o_data x); o_disk := clip keep (o_disk x) |}) in
    set_vm w1 (fun p => match w_vm w1 p with
                        | Some e => if (p_obj e =? o) && negb (p_shared e) && (sz <=? P * p_idx e)
                                    then Some (set_copy None e) else Some e
                        | None => None
                        end).

  Definition sys_ftruncate (fd sz : Z) : ST Z unit :=
    ask (fun _ w =>
      if sz <? 0 then (Err EINVAL, w)
      else match w_fd w fd with
           | None => (Err EBADF, w)
           | Some f => if negb (fd_w f) then (Err EINVAL, w) else (Ret tt, resize_obj (fd_obj f) sz w)
           end).

  Definition sys_fstat (fd : Z) : ST Z Z :=
    ask (fun _ w => match w_fd w fd with
                    | None => (Err EBADF, w)
                    | Some f => (Ret (o_size (w_obj w (fd_obj f))), w)
                    end).

  (** close(2) always releases the descriptor. *)
  Definition sys_close (fd : Z) : ST Z unit := fun w => (Ret tt, set_fd w (put (w_fd w) fd None)).

  Definition new_fd_ok (w : world) (fd : Z) : bool :=
    (0 <=? fd) && match w_fd w fd with None => true | Some _ => false end.

  (** memfd_create(2), shm_open(SHM_ANON): an empty object without a name. *)
  Definition sys_memfd : ST Z Z :=
    ask (fun a w =>
      if negb (new_fd_ok w a) then (Err EMFILE, w)
      else let o := w_next w in
           (Ret a, set_fd (set_next (set_obj w (put (w_obj w) o
              {| o_size := 0; o_data := fun _ => 0; o_disk := fun _ => 0 |})) (o + 1))
              (put (w_fd w) a (Some {| fd_obj := o; fd_w := true |})))).

  (** open(2) for reading, and for writing if [wr]; O_CREAT, O_EXCL, O_TRUNC. *)
  Definition sys_open (path : Z) (wr creat excl trunc : bool) : ST Z Z :=
    ask (fun a w =>
      if negb (new_fd_ok w a) then (Err EMFILE, w)
      else match w_fs w path with
           | Some o =>
             if creat && excl then (Err EEXIST, w)
             else let w1 := if trunc && (0 <? o_size (w_obj w o)) then resize_obj o 0 w else w in
                  (Ret a, set_fd w1 (put (w_fd w1) a (Some {| fd_obj := o; fd_w := wr |})))
           | None =>
             if negb creat then (Err ENOENT, w)
             else let o := w_next w in
                  (Ret a, set_fd (set_fs (set_next (set_obj w (put (w_obj w) o
                     {| o_size := 0; o_data := fun _ => 0; o_disk := fun _ => 0 |})) (o + 1))
                     (put (w_fs w) path (Some o)))
                     (put (w_fd w) a (Some {| fd_obj := o; fd_w := wr |})))
           end).

  (** ** Memory accesses.  A page wholly behind the end of its object gives
      SIGBUS. *)
  Definition page_byte (w : world) (e : pte) (k : Z) : byte :=
    match p_copy e with
    | Some c => c k
    | None => o_data (w_obj w (p_obj e)) (P * p_idx e + k)
    end.

  Definition load {E} (w : world) (addr : Z) : out E byte :=
    match w_vm w (addr / P) with
    | None => Fault
    | Some e =>
      if negb (p_r e) then Fault
      else if o_size (w_obj w (p_obj e)) <=? P * p_idx e then Fault
      else Ret (page_byte w e (addr mod P))
    end.

  Definition store {E} (addr : Z) (b : byte) : ST E unit := fun w =>
    match w_vm w (addr / P) with
    | None => (Fault, w)
    | Some e =>
      if negb (p_w e) then (Fault, w)
      else
        let x := w_obj w (p_obj e) in
        if o_size x <=? P * p_idx e then (Fault, w)
        else if p_shared e then
          let i := P * p_idx e + addr mod P in
          (Ret tt, if i <? o_size x
                   then set_obj w (put (w_obj w) (p_obj e)
                          {| o_size := o_size x; o_data := upd (o_data x) i b; o_disk := o_disk x |})
                   else w)
        else
          (Ret tt, set_vm w (put (w_vm w) (addr / P)
                     (Some (set_copy (Some (upd (page_byte w e) (addr mod P) b)) e))))
    end.
End Kernel.
