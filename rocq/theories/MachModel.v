(** Model of the ring allocation on macOS and iOS (src/os/unix/mach.rs) over
    the pages and objects of OsModel.v plus a table of ports.

    Kernel side (assumed behaviour of the Mach VM calls): sizes are rounded up
    to pages, a size of 0 succeeds without effect at address 0; memory entries
    name whole pages of one object.  Memory is inherited by nobody here (one
    task), so allocated memory is entered as shared with its object.  What
    the kernel decides freely comes from the answers of the world, as in
    OsModel.v. *)
From Verif Require Import Base ErrorModel SizeModel OsModel MapModel RingMapModel.

(** A memory entry: object, first page, number of pages. *)
Record mem_entry := { me_obj : Z; me_idx : Z; me_pages : Z }.
(** [mc_ports]: the send rights the task holds to memory entries. *)
Record mach := { mc_w : world; mc_ports : Z -> option mem_entry }.

Definition MT (E A : Type) := mach -> out E A * mach.
Definition mbind {E A B} (m : MT E A) (k : A -> MT E B) : MT E B :=
  fun s => match m s with
           | (Ret a, s') => k a s'
           | (Err e, s') => (Err e, s')
           | (Panic, s') => (Panic, s')
           | (Fault, s') => (Fault, s')
           | (Blocked, s') => (Blocked, s')
           end.
Notation "'mdo*' x <- e ; k" := (mbind e (fun x => k))
  (at level 200, x pattern, e at level 100, k at level 200, right associativity).
Definition mret {E A} (a : A) : MT E A := fun s => (Ret a, s).
Definition mout {E A} (x : out E A) : MT E A := fun s => (x, s).

(** kern_return_t values *)
Definition KERN_INVALID_ADDRESS := 1.
Definition KERN_NO_SPACE := 3.
Definition KERN_INVALID_ARGUMENT := 4.

(** Run a call of the world. *)
Definition on_world {E A} (m : ST E A) : MT E A := fun s =>
  let '(r, w) := m (mc_w s) in (r, {| mc_w := w; mc_ports := mc_ports s |}).

Section Mach.
  Variable t : target.
  Notation P := (t_page t).

  Definition fresh_object (len : Z) (w : world) : world :=
    set_next (set_obj w (put (w_obj w) (w_next w)
      {| o_size := P * npages t len; o_data := fun _ => 0; o_disk := fun _ => 0 |})) (w_next w + 1).
  Definition enter (first n o idx : Z) (w : world) : world :=
    set_vm w (fun p => if in_pages first n p then Some (entry o (idx + (p - first)) PRW true true) else w_vm w p).

  (** vm_allocate(VM_FLAGS_ANYWHERE) *)
  Definition vm_allocate_anywhere (size : Z) : ST Z Z :=
    ask (fun a w =>
      if size =? 0 then (Ret 0, w)
      else if negb (range_ok t a size) || negb (free_range w (a / P) (npages t size)) then (Err KERN_NO_SPACE, w)
      else (Ret a, enter (a / P) (npages t size) (w_next w) 0 (fresh_object size w))).

  (** vm_allocate(VM_FLAGS_FIXED | VM_FLAGS_OVERWRITE): replaces what is there *)
  Definition vm_allocate_fixed (addr size : Z) : ST Z Z :=
    ask (fun _ w =>
      if size =? 0 then (Ret 0, w)
      else if negb (range_ok t addr size) then (Err KERN_INVALID_ADDRESS, w)
      else (Ret addr, enter (addr / P) (npages t size) (w_next w) 0 (fresh_object size w))).

  (** vm_deallocate *)
  Definition vm_deallocate (addr size : Z) : ST Z unit :=
    ask (fun _ w =>
      if size =? 0 then (Ret tt, w)
      else (Ret tt, set_vm w (fun p => if in_pages (addr / P) (npages t (addr mod P + size)) p then None else w_vm w p))).

  (** mach_make_memory_entry over pages that show consecutive pages of one
      object: the size written back is the rounded one. *)
  Definition one_object (w : world) (first n : Z) : option (Z * Z) :=
    match w_vm w first with
    | None => None
    | Some e0 =>
      if forallb (fun p => match w_vm w p with
                           | Some e => (p_obj e =? p_obj e0) && (p_idx e =? p_idx e0 + (p - first)) && p_r e && p_w e
                           | None => false
                           end) (page_seq first n)
      then Some (p_obj e0, p_idx e0) else None
    end.
  Definition make_memory_entry (size addr : Z) : MT Z (Z * Z) := fun s =>
    match ask (fun a w => (Ret a, w)) (mc_w s) with
    | (Ret port, w) =>
      let s' := {| mc_w := w; mc_ports := mc_ports s |} in
      match mc_ports s port, (if size =? 0 then None else one_object w (addr / P) (npages t size)) with
      | None, Some (o, i) =>
        (Ret (P * npages t size, port),
         {| mc_w := w; mc_ports := put (mc_ports s) port (Some {| me_obj := o; me_idx := i; me_pages := npages t size |}) |})
      | _, _ => (Err KERN_INVALID_ARGUMENT, s')
      end
    | (Err e, w) => (Err e, {| mc_w := w; mc_ports := mc_ports s |})
    | (_, w) => (Blocked, {| mc_w := w; mc_ports := mc_ports s |})
    end.

  (** vm_map(VM_FLAGS_FIXED | VM_FLAGS_OVERWRITE), offset 0, no copy *)
  Definition vm_map_fixed (addr size port : Z) : MT Z Z := fun s =>
    on_world (ask (fun _ w =>
      match mc_ports s port with
      | None => (Err KERN_INVALID_ARGUMENT, w)
      | Some m =>
        if negb (range_ok t addr size) || (me_pages m <? npages t size) then (Err KERN_INVALID_ADDRESS, w)
        else (Ret addr, enter (addr / P) (npages t size) (me_obj m) (me_idx m) w)
      end)) s.

  (** ** mach.rs *)

  (** a failed call as [Error::kernel] *)
  Definition kern_call {A} (op : operation) (m : MT Z A) : MT error A := fun s =>
    match m s with
    | (Ret a, s') => (Ret a, s')
    | (Err c, s') => (Err (error_kernel op c), s')
    | (Panic, s') => (Panic, s')
    | (Fault, s') => (Fault, s')
    | (Blocked, s') => (Blocked, s')
    end.

  (** the cleanup of mach.rs:92-94, 101-103, 124-126: deallocate [2 * len] (the
      current value of [len]), ignore the result, return the error *)
  Definition or_cleanup {A} (addr len : Z) (m : MT error A) : MT error A := fun s =>
    match m s with
    | (Err e, s') =>
      match umul (E:=error) t 2 len with
      | Ret l => (Err e, snd (on_world (vm_deallocate addr l) s'))
      | _ => (Panic, s')
      end
    | (r, s') => (r, s')
    end.

  (** mach.rs:79-131.  After a failed mach_make_memory_entry [len] is the
      length asked for; [addr + len] is usize arithmetic. *)
  Definition mach_map_ring (len : Z) : MT error Z :=
    mdo* full <- mout (umul t 2 len);
    mdo* addr <- kern_call RingAllocate (on_world (vm_allocate_anywhere full));
    mdo* addr <- or_cleanup addr len (kern_call RingPrimary (on_world (vm_allocate_fixed addr len)));
    mdo* x <- or_cleanup addr len (kern_call RingEntry (make_memory_entry len addr));
    let '(len, map_port) := x in
    mdo* half <- mout (uadd t addr len);
    mdo* _ <- or_cleanup addr len (kern_call RingSecondary (vm_map_fixed half len map_port));
    mret addr.

  (** mach.rs:144-152 *)
  Definition mach_unmap_ring (pg len : Z) : MT error unit :=
    mdo* l <- mout (umul t 2 len);
    kern_call RingDeallocate (on_world (vm_deallocate pg l)).

  (** src/io/ring.rs:72-81, 233-242 *)
  Definition mach_ring_new (hint : Z) : MT error ring_alloc :=
    mdo* len <- mout (size_round t (size_alloc t) hint);
    mdo* ptr <- mach_map_ring len;
    mret {| ra_ptr := ptr; ra_len := len |}.

  (** src/io/ring.rs:92-96, 245-249: the result of unmap_ring is dropped *)
  Definition mach_ring_drop (r : ring_alloc) : MT error unit := fun s =>
    match mach_unmap_ring (ra_ptr r) (ra_len r) s with
    | (Err _, s') => (Ret tt, s')
    | x => x
    end.
End Mach.
