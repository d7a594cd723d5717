(** Specification side of the ring allocation properties. *)
From Verif Require Import Base ErrorModel OsModel RingMapModel.

(** Nothing a program can see changed: address space, descriptors, the
    contents of everything that existed. *)
Record untouched (w w' : world) : Prop := {
  ut_vm : forall p, w_vm w' p = w_vm w p;
  ut_fd : forall fd, w_fd w' fd = w_fd w fd;
  ut_obj : forall o, o < w_next w -> w_obj w' o = w_obj w o
}.

(** The kernel refused the last call made between the two states (or had no
    answer left for it). *)
Definition refused_last (w w' : world) : Prop :=
  w_orc w' = [] \/ exists q e, w_orc w = q ++ Refuse e :: w_orc w'.
(** The kernel refused some call made between the two states. *)
Definition refused_some (w w' : world) : Prop :=
  w_orc w' = [] \/ exists q e q', w_orc w = q ++ Refuse e :: q' ++ w_orc w'.

(** Stores at offsets from [pg], in order. *)
Fixpoint put_all (t : target) (pg : Z) (l : list (Z * byte)) : ST error unit :=
  match l with
  | [] => sret tt
  | (v, b) :: l => do* _ <- store t (pg + v) b; put_all t pg l
  end.

(** What [n] bytes, initially [m], hold after those stores when offset [v]
    means byte [v mod n]. *)
Definition folded (n : Z) (m : Z -> byte) (l : list (Z * byte)) : Z -> byte :=
  fold_left (fun m x => upd m (fst x mod n) (snd x)) l m.

(** The addresses [pg .. pg + 2 n) behave as [n] bytes, initially [m], shown
    twice: whatever is stored, in whatever order, every load sees it. *)
Definition mirrored (t : target) (w : world) (pg n : Z) (m : Z -> byte) : Prop :=
  forall l, Forall (fun x => 0 <= fst x < 2 * n) l ->
  let '(r, w') := put_all t pg l w in
  r = Ret tt /\
  (forall v, 0 <= v < 2 * n -> load (E:=error) t w' (pg + v) = Ret (folded n m l (v mod n))) /\
  (forall a, ~ (pg <= a < pg + 2 * n) -> load (E:=error) t w' a = load t w a).

(** Bytes stored one after the other. *)
Fixpoint from_offset (off : Z) (d : bytes) : list (Z * byte) :=
  match d with [] => [] | b :: d => (off, b) :: from_offset (off + 1) d end.

(** Reading consecutive addresses. *)
Fixpoint load_all (t : target) (w : world) (a : Z) (k : nat) : out error bytes :=
  match k with
  | O => Ret []
  | S k => let* b := load t w a in let* l := load_all t w (a + 1) k in Ret (b :: l)
  end.
(** ** Failures *)
Definition ring_stage (op : operation) : Prop := op = RingAllocate \/ op = RingPrimary \/ op = RingSecondary.

(** An operating system error of one of the four stages. *)
Definition stage_error (e : error) : Prop :=
  exists op c, (op = MemoryFd \/ ring_stage op) /\ e = last_os_error op c.

(** An address range that was free before is left mapped. *)
Definition left_mapped (t : target) (w w' : world) (len : Z) : Prop :=
  exists first, (forall p, first <= p < first + npages t (2 * len) -> w_vm w p = None) /\
                (forall p, ~ first <= p < first + npages t (2 * len) -> w_vm w' p = w_vm w p).

(** The answers of a kernel that grants all five calls: a descriptor, the
    length change, the reservation at [pg] and the two halves. *)
Definition grants (fd x1 pg x3 x4 : Z) : list answer := [Grant fd; Grant x1; Grant pg; Grant x3; Grant x4].

(** The stage that fails when the kernel refuses the [k]-th call. *)
Definition nth_stage (k : nat) : operation :=
  nth k [MemoryFd; MemoryFd; RingAllocate; RingPrimary; RingSecondary] OpNone.

(** ** Temporary names *)

(** The number a string of decimal digits stands for. *)
Fixpoint number (acc : Z) (l : bytes) : Z :=
  match l with [] => acc | b :: l => number (10 * acc + (b - 48)) l end.

(** "/vmap-" *)
Definition name_prefix : bytes := [47; 118; 109; 97; 112; 45].

(** [name] is "/vmap-" and the last seven digits of the clock reading [c]
    (nanoseconds), zero padded. *)
Definition is_name (c : Z) (name : bytes) : Prop :=
  exists d, name = name_prefix ++ d /\ length d = 7%nat /\ Forall (fun b => 48 <= b <= 57) d /\
            number 0 d = c mod 10000000.

(** An answer that makes round [i] fail with EEXIST. *)
Definition collides (clock : nat -> Z) (w : world) (i : nat) (x : answer) : Prop :=
  x = Refuse EEXIST \/
  exists a, x = Grant a /\ 0 <= a /\ w_fd w a = None /\
    forall name, is_name (clock i) name -> w_fs w (shm_path name) <> None.

