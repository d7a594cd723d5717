(** Model of the ring allocation on POSIX systems (src/os/unix/posix/mod.rs,
    src/os/unix/posix/memfd.rs) and of creating and dropping the ring types
    (src/io/ring.rs), over the kernel of OsModel.v. *)
From Verif Require Import Base ErrorModel SizeModel OsModel MapModel.

(** ** What std and the kernel add for memfd.rs:33-61 *)

(** shm_unlink(2) *)
Definition sys_shm_unlink (path : Z) : ST Z unit :=
  ask (fun _ w => match w_fs w path with
                  | None => (Err ENOENT, w)
                  | Some _ => (Ret tt, set_fs w (put (w_fs w) path None))
                  end).

(** Decimal digits (ASCII) of a number, most significant first, as
    [format!("{}")] writes them; [k] bounds their number. *)
Fixpoint digits (k : nat) (n : Z) : bytes :=
  match k with
  | O => []
  | S k => (if n <? 10 then [] else digits k (n / 10)) ++ [48 + n mod 10]
  end.
Definition to_decimal (n : Z) : bytes := digits 20 n.
(** [{:0>w}]: fill with '0' on the left up to width [w]. *)
Definition pad0 (w : Z) (l : bytes) : bytes := repeat 48 (Z.to_nat (w - zlen l)) ++ l.

(** [write!(&mut buf[at..], ..)] of [l] for a byte array: fails (and the
    [unwrap] panics) when [l] does not fit. *)
Definition write_at (buf : bytes) (at_ : Z) (l : bytes) : out error bytes :=
  if at_ + zlen l <=? zlen buf
  then Ret (ztake at_ buf ++ l ++ zdrop (at_ + zlen l) buf) else Panic.

(** [CStr::from_bytes_with_nul(..).unwrap()]: the only NUL is the last byte. *)
Definition cstr (l : bytes) : out error bytes :=
  match rev l with
  | 0 :: r => if forallb (fun b => negb (b =? 0)) r then Ret (rev r) else Panic
  | _ => Panic
  end.

(** ["/vmap-XXXXXXX\0"] (memfd.rs:36) *)
Definition shm_template : bytes := [47; 118; 109; 97; 112; 45; 88; 88; 88; 88; 88; 88; 88; 0].

(** Names of shared memory objects live beside the file names: the name's
    bytes as a number, negative. *)
Fixpoint name_number (l : bytes) : Z := match l with [] => 0 | b :: l => b + 256 * name_number l end.
Definition shm_path (name : bytes) : Z := -1 - name_number name.

(** memfd.rs:39-48.  The clock is the time since the epoch in nanoseconds;
    before the epoch [duration_since] fails and [unwrap] panics. *)
Definition shm_name (clock : Z) (path_bytes : bytes) : out error (bytes * bytes) :=
  if clock <? 0 then Panic
  else
    let subsec_nanos := clock mod 10 ^ 9 in
    let pseudorandom := subsec_nanos mod 10000000 in
    let* pb := write_at path_bytes 6 (pad0 7 (to_decimal pseudorandom)) in
    let* name := cstr pb in
    Ret (name, pb).

(** The three platforms of memfd.rs. *)
Inductive platform := Anonymous | Named.

Section RingMap.
  Variable t : target.
  (** Linux, Android, FreeBSD: [Anonymous]; other Unix: [Named], with the
      successive readings of the clock. *)
  Variable plat : platform.
  Variable clock : nat -> Z.

  (** memfd.rs:38-60.  Every round asks the kernel once, so the answers left
      bound the number of rounds; [Blocked] is never reached. *)
  Fixpoint shm_loop (fuel : nat) (round : nat) (pb : bytes) : ST error Z :=
    match fuel with
    | O => sout Blocked
    | S fuel =>
      fun w =>
        match shm_name (clock round) pb with
        | Ret (name, pb) =>
          match sys_open t (shm_path name) true true true false w with
          | (Ret fd, w') => (Ret fd, snd (sys_shm_unlink (shm_path name) w'))
          | (Err e, w') =>
            let err := last_os_error MemoryFd e in
            match raw_os_error err with
            | Some c => if c =? EEXIST then shm_loop fuel (S round) pb w' else (Err err, w')
            | None => (Err err, w')
            end
          | (_, w') => (Blocked, w')
          end
        | _ => (Panic, w)
        end
    end.

  (** memfd.rs:6-31, 34-61 *)
  Definition memfd_open : ST error Z :=
    match plat with
    | Anonymous => os_call MemoryFd sys_memfd
    | Named => fun w => shm_loop (S (length (w_orc w))) 0 shm_template w
    end.

  (** posix/mod.rs:91-102; the size is passed [as off_t] *)
  Definition tmp_open (size : Z) : ST error Z :=
    do* fd <- memfd_open;
    fun w => match sys_ftruncate t fd (as_signed t size) w with
             | (Ret _, w') => (Ret fd, w')
             | (Err e, w') => (Err (last_os_error MemoryFd e), snd (sys_close fd w'))
             | (_, w') => (Blocked, w')
             end.

  (** posix/mod.rs:65-74 *)
  Definition ring_mmap (op : operation) (fixed : bool) (pg len : Z) (shared anon : bool) (fd : Z) : ST error Z :=
    os_call op (sys_mmap t fixed pg len PRW shared anon fd 0).

  (** posix/mod.rs:51-63 *)
  Definition wrap_ptr (pg len fd : Z) : ST error Z :=
    do* _ <- ring_mmap RingPrimary true pg len true false fd;
    do* _ <- ring_mmap RingSecondary true (ptr_add t pg len) len true false fd;
    sret pg.

  (** posix/mod.rs:87-89 *)
  Definition unmap_ring (pg len : Z) : ST error unit :=
    do* l <- sout (umul t 2 len);
    os_unmap t pg l.

  (** [.unwrap_or_default()]: a failure is dropped *)
  Definition ignore (m : ST error unit) : ST error unit := fun w =>
    match m w with
    | (Err _, w') => (Ret tt, w')
    | (r, w') => (r, w')
    end.

  (** posix/mod.rs:32-49 *)
  Definition wrap_fd (len fd : Z) : ST error Z :=
    do* full <- sout (umul t len 2);
    do* pg <- ring_mmap RingAllocate false 0 full false true (-1);
    fun w => match wrap_ptr pg len fd w with
             | (Err err, w') => (do* _ <- ignore (unmap_ring pg len); sout (Err err)) w'
             | (r, w') => (r, w')
             end.

  (** posix/mod.rs:22-30.  A panic in [wrap_fd] would skip the close. *)
  Definition map_ring (len : Z) : ST error Z :=
    do* fd <- tmp_open len;
    fun w => match wrap_fd len fd w with
             | (Ret pg, w') => (Ret pg, snd (sys_close fd w'))
             | (Err e, w') => (Err e, snd (sys_close fd w'))
             | (r, w') => (r, w')
             end.

  (** The pointer and length of a [Ring] or [InfiniteRing]
      (src/io/ring.rs:58-63, 219-224). *)
  Record ring_alloc := { ra_ptr : Z; ra_len : Z }.

  (** src/io/ring.rs:72-81, 233-242 *)
  Definition ring_new (hint : Z) : ST error ring_alloc :=
    do* len <- sout (size_round t (size_alloc t) hint);
    do* ptr <- map_ring len;
    sret {| ra_ptr := ptr; ra_len := len |}.

  (** src/io/ring.rs:92-96, 245-249; [write_capacity] is the length *)
  Definition ring_drop (r : ring_alloc) : ST error unit := ignore (unmap_ring (ra_ptr r) (ra_len r)).
End RingMap.
