(** The calls a user makes on a ring and what they should do: a bounded queue
    of bytes, and a lossy queue for [InfiniteRing]. *)
From Verif Require Import Base ErrorModel.

(** Calls on a [Ring]. *)
Inductive rop :=
| RWrite (b : bytes)                       (* Write::write *)
| RWriteAll (b : bytes)                    (* Write::write_all *)
| RRead (n : Z)                            (* Read::read into n bytes *)
| RConsume (n : Z)                         (* BufRead::consume, Buf::advance *)
| RFeed (n : Z)                            (* SeqWrite::feed, BufMut::advance_mut *)
| RStore (max i : Z) (d : bytes)           (* stores d at index i of as_write_slice(max) *)
| RPeek (max : Z)                          (* as_read_slice(max) *)
| RUntil (d : byte)                        (* BufRead::read_until *)
| RPut (b : bytes)                         (* BufMut::put_slice *)
| RClear.                                  (* Ring::clear *)

(** Calls on an [InfiniteRing]. *)
Inductive irop :=
| IWrite (b : bytes)
| IWriteAll (b : bytes)
| IRead (n : Z)
| IConsume (n : Z)
| IFeed (n : Z)
| IStore (max i : Z) (d : bytes)
| IPeek (max : Z).

(** What a call returns. *)
Inductive rout :=
| OUnit
| OCount (n : Z)
| OBytes (b : bytes)
| OErr (e : io_error).

(** ** Bounded queue: the readable bytes, and the bytes now found in the
    writable area (its size is the free space).  Together they are always the
    capacity. *)
Record queue := { q_data : bytes; q_free : bytes }.

Definition q_append (q : queue) (b : bytes) : queue :=
  {| q_data := q_data q ++ b; q_free := zdrop (zlen b) (q_free q) |}.
Definition q_remove (q : queue) (n : Z) : queue :=
  {| q_data := zdrop n (q_data q); q_free := q_free q ++ ztake n (q_data q) |}.

(** The prefix of [l] through the first [d]; all of [l] if there is none. *)
Fixpoint through (d : byte) (l : bytes) : bytes :=
  match l with
  | [] => []
  | b :: l' => if b =? d then [b] else b :: through d l'
  end.

(** Calls that must panic (an index outside a slice; put_slice beyond the
    remaining space, a precondition of bytes::BufMut). *)
Definition q_panics (q : queue) (o : rop) : Prop :=
  match o with
  | RStore max i d => ~ (0 <= i /\ i + zlen d <= Z.min (zlen (q_free q)) max)
  | RPut b => zlen (q_free q) < zlen b
  | _ => False
  end.

Definition q_step (q : queue) (o : rop) (q' : queue) (x : rout) : Prop :=
  match o with
  | RWrite b =>
    let n := Z.min (zlen b) (zlen (q_free q)) in
    q' = q_append q (ztake n b) /\ x = OCount n
  | RWriteAll b =>
    q' = q_append q (ztake (zlen (q_free q)) b) /\
    x = (if zlen b <=? zlen (q_free q) then OUnit else OErr (IoSimple WriteZero))
  | RRead n => q' = q_remove q n /\ x = OBytes (ztake n (q_data q))
  | RConsume n => q' = q_remove q n /\ x = OUnit
  | RFeed n => q' = q_append q (ztake n (q_free q)) /\ x = OUnit
  | RStore max i d =>
    q' = {| q_data := q_data q;
            q_free := ztake i (q_free q) ++ d ++ zdrop (i + zlen d) (q_free q) |} /\ x = OUnit
  | RPeek max => q' = q /\ x = OBytes (ztake max (q_data q))
  | RUntil d =>
    let b := through d (q_data q) in
    q' = q_remove q (zlen b) /\ x = OBytes b
  | RPut b => q' = q_append q b /\ x = OUnit
  | RClear =>
    q_data q' = [] /\
    (exists k, let all := q_data q ++ q_free q in
               q_free q' = zdrop k all ++ ztake k all) /\ x = OUnit
  end.

(** A history: every call steps the queue; the first call that must panic
    ends it. *)
Inductive q_run : queue -> list rop -> option (queue * list rout) -> Prop :=
| q_run_nil q : q_run q [] (Some (q, []))
| q_run_panic q o os : q_panics q o -> q_run q (o :: os) None
| q_run_ok q o os q' x q'' xs :
    ~ q_panics q o -> q_step q o q' x -> q_run q' os (Some (q'', xs)) ->
    q_run q (o :: os) (Some (q'', x :: xs))
| q_run_later q o os q' x :
    ~ q_panics q o -> q_step q o q' x -> q_run q' os None -> q_run q (o :: os) None.

(** ** Lossy queue: the last [cap] bytes seen, oldest first, of which the last
    [lq_len] are readable. *)
Record lqueue := { lq_tape : bytes; lq_len : Z }.

Definition lastn (n : Z) (l : bytes) : bytes := zdrop (zlen l - n) l.

Definition lq_data (q : lqueue) : bytes := lastn (lq_len q) (lq_tape q).

(** [b] enters: it pushes out the oldest bytes of the tape. *)
Definition lq_push (q : lqueue) (b : bytes) : lqueue :=
  {| lq_tape := lastn (zlen (lq_tape q)) (lq_tape q ++ b);
     lq_len := Z.min (lq_len q + zlen b) (zlen (lq_tape q)) |}.
Definition lq_drop (q : lqueue) (n : Z) : lqueue :=
  {| lq_tape := lq_tape q; lq_len := Z.max 0 (lq_len q - n) |}.

Definition lq_panics (q : lqueue) (o : irop) : Prop :=
  match o with
  | IStore max i d => ~ (0 <= i /\ i + zlen d <= Z.min (zlen (lq_tape q)) max)
  | _ => False
  end.

Definition lq_step (q : lqueue) (o : irop) (q' : lqueue) (x : rout) : Prop :=
  let cap := zlen (lq_tape q) in
  match o with
  | IWrite b =>
    q' = lq_push q (ztake cap b) /\ x = OCount (Z.min (zlen b) cap)
  | IWriteAll b => q' = lq_push q b /\ x = OUnit
  | IRead n => q' = lq_drop q n /\ x = OBytes (ztake n (lq_data q))
  | IConsume n => q' = lq_drop q n /\ x = OUnit
  | IFeed n => q' = lq_push q (ztake n (lq_tape q)) /\ x = OUnit
  | IStore max i d =>
    (* overwrites the oldest part of the tape, including readable bytes *)
    q' = {| lq_tape := ztake i (lq_tape q) ++ d ++ zdrop (i + zlen d) (lq_tape q);
            lq_len := lq_len q |} /\ x = OUnit
  | IPeek max => q' = q /\ x = OBytes (ztake max (lq_data q))
  end.

Inductive lq_run : lqueue -> list irop -> option (lqueue * list rout) -> Prop :=
| lq_run_nil q : lq_run q [] (Some (q, []))
| lq_run_panic q o os : lq_panics q o -> lq_run q (o :: os) None
| lq_run_ok q o os q' x q'' xs :
    ~ lq_panics q o -> lq_step q o q' x -> lq_run q' os (Some (q'', xs)) ->
    lq_run q (o :: os) (Some (q'', x :: xs))
| lq_run_later q o os q' x :
    ~ lq_panics q o -> lq_step q o q' x -> lq_run q' os None -> lq_run q (o :: os) None.

(** ** Which histories the theorems cover

    The stream position [X] is handled exactly by a ring of [len] bytes: the
    64-bit counter has not overflowed, or wraps silently (overflow checks
    off); and the cast to usize loses nothing, or loses a multiple of [len]. *)
Definition pos_ok (t : target) (len X : Z) : Prop :=
  (X < 2 ^ 64 \/ t_checks t = false) /\ (X < 2 ^ t_bits t \/ (len | 2 ^ t_bits t)).

(** Arguments are values of their Rust types. *)
Definition rop_ok (t : target) (o : rop) : Prop :=
  match o with
  | RRead n | RConsume n | RFeed n | RPeek n => is_usize t n
  | RStore max i d => is_usize t max /\ is_usize t i
  | _ => True
  end.

(** How many bytes a call can add at most. *)
Definition rop_weight (cap : Z) (o : rop) : Z :=
  match o with
  | RWrite b | RWriteAll b | RPut b => Z.min (zlen b) cap
  | RFeed n => Z.min n cap
  | _ => 0
  end.

(** Bytes added at most since the last clear. *)
Definition next_total (acc cap : Z) (o : rop) : Z :=
  match o with RClear => 0 | _ => acc + rop_weight cap o end.
Fixpoint total_after (acc cap : Z) (os : list rop) : Z :=
  match os with [] => acc | o :: os' => total_after (next_total acc cap o) cap os' end.

Fixpoint history_ok (t : target) (acc cap : Z) (os : list rop) : Prop :=
  match os with
  | [] => True
  | o :: os' => rop_ok t o /\ pos_ok t cap (acc + rop_weight cap o) /\
                history_ok t (next_total acc cap o) cap os'
  end.

(** For [InfiniteRing]; [feed] only with counts whose sum with the readable
    length cannot overflow u64. *)
Definition irop_ok (t : target) (cap : Z) (o : irop) : Prop :=
  match o with
  | IRead n | IConsume n | IPeek n => is_usize t n
  | IFeed n => is_usize t n /\ cap + n < 2 ^ 64
  | IStore max i d => is_usize t max /\ is_usize t i
  | IWrite b | IWriteAll b => zlen b < 2 ^ t_bits t
  end.

Definition irop_weight (cap : Z) (o : irop) : Z :=
  match o with
  | IWrite b | IWriteAll b => Z.min (zlen b) cap
  | IFeed n => Z.min n cap
  | _ => 0
  end.
Fixpoint itotal_after (acc cap : Z) (os : list irop) : Z :=
  match os with [] => acc | o :: os' => itotal_after (acc + irop_weight cap o) cap os' end.

Fixpoint ihistory_ok (t : target) (acc cap : Z) (os : list irop) : Prop :=
  match os with
  | [] => True
  | o :: os' => irop_ok t cap o /\ pos_ok t cap (acc + irop_weight cap o) /\
                ihistory_ok t (acc + irop_weight cap o) cap os'
  end.

(** Arguments of type usize and slices that fit in memory. *)
Definition irop_args (t : target) (o : irop) : Prop :=
  match o with
  | IRead n | IConsume n | IPeek n | IFeed n => is_usize t n
  | IStore max i d => is_usize t max /\ is_usize t i
  | IWrite b | IWriteAll b => zlen b < 2 ^ t_bits t
  end.
