(** What the history theorems speak about. *)
From Verif Require Import Base ErrorModel OsModel OthersModel MapModel MapSpec ApiModel.

(** File lengths are 64-bit numbers, offsets are not negative. *)
Definition other_ok (e : other) : Prop :=
  match e with
  | OMake _ | OUnlink _ | OLink _ _ => True
  | OGrow _ sz | OCut _ sz => 0 <= sz < 2 ^ 64
  | OWrite _ off _ _ => 0 <= off
  end.

(** Arguments are machine words, and an addition that Rust checks only with
    overflow checks on does not wrap. *)
Definition call_ok (t : target) (c : call) : Prop :=
  match c with
  | COpen _ o _ | CMap _ o _ => options_ok t o
  | CAlloc _ o => options_ok t o /\ (alloc_fits t o \/ t_checks t = true)
  | CFlushRange _ off len _ | CAdviseRange _ off len _ | CLockRange _ off len | CUnlockRange _ off len =>
      is_usize t off /\ is_usize t len /\ (off + len < 2 ^ t_bits t \/ t_checks t = true)
  | COther e => other_ok e
  | _ => True
  end.

(** Files opened by the program, or reached by other processes, have names of
    their own, not those of POSIX shared memory (negative, see RingMapModel.v).
    Other processes may take and remove such names; [C88_named_memory_refuted]
    shows what happens if they use one that the program could not remove. *)
Definition named_ok (c : call) : Prop :=
  match c with
  | COpen _ _ path => 0 <= path
  | COther (OLink from to) => 0 <= from
  | COther (OGrow path _) | COther (OCut path _) | COther (OWrite path _ _ _) => 0 <= path
  | _ => True
  end.

(** The map a call is made on. *)
Definition subject (c : call) : option Z :=
  match c with
  | CToMut k | CToMap k | CGet k _ | CSet k _ _ | CFlush k _ | CFlushRange k _ _ _ | CAdvise k _ | CAdviseRange k _ _ _
  | CLock k | CLockRange k _ _ | CUnlock k | CUnlockRange k _ _ | CDrop k => Some k
  | _ => None
  end.

Definition l_shared (l : live) : bool := prot_shares (l_prot l).
Definition l_maxw (l : live) : bool := negb (l_shared l) || l_wr l.

(** The invariant: every map held is backed by its own pages. *)
Record api_ok (t : target) (a : api) : Prop := {
  ok_wf : wf (a_w a);
  ok_cnt : forall k, a_cnt a <= k -> a_live a k = None;
  ok_live : forall k l, a_live a k = Some l ->
    backed t (a_w a) (l_map l) (l_obj l) (l_off l) (l_shared l) (l_maxw l);
  ok_apart : forall k1 k2 l1 l2 p, a_live a k1 = Some l1 -> a_live a k2 = Some l2 -> k1 <> k2 ->
    own_page t (l_map l1) p -> own_page t (l_map l2) p -> False
}.

(** States of programs: from a well-formed world without maps. *)
Inductive reached (t : target) : api -> Prop :=
| reach_start w : wf w -> reached t (no_maps w)
| reach_step a c : reached t a -> call_ok t c -> reached t (snd (step t c a)).

(** Entries that hold the same place with the same permissions. *)
Definition unmoved (e e' : pte) : Prop :=
  p_obj e' = p_obj e /\ p_idx e' = p_idx e /\ p_r e' = p_r e /\ p_w e' = p_w e /\ p_x e' = p_x e /\
  p_shared e' = p_shared e /\ p_maxw e' = p_maxw e /\ p_lock e' = p_lock e.

(** The sub-range calls: map, offset, length, operation they belong to. *)
Definition range_call (c : call) : option (Z * Z * Z * operation) :=
  match c with
  | CFlushRange k off len _ => Some (k, off, len, OpFlush)
  | CAdviseRange k off len _ => Some (k, off, len, OpAdvise)
  | CLockRange k off len => Some (k, off, len, OpLock)
  | CUnlockRange k off len => Some (k, off, len, OpUnlock)
  | _ => None
  end.
Definition is_flush (c : call) : bool := match c with CFlushRange _ _ _ _ => true | _ => false end.

(** Page [p] meets bytes [x .. x+len) of the address space. *)
Definition meets (t : target) (p x len : Z) : Prop := t_page t * p < x + len /\ x < t_page t * (p + 1).

(** The operation every failure of a call is reported with; [None]: the call
    has no failure to report. *)
Definition operation_of (c : call) : option operation :=
  match c with
  | COpen _ _ _ | CMap _ _ _ => Some MapFile
  | CAlloc _ _ => Some MapAnonymous
  | CToMut _ | CToMap _ => Some OpProtect
  | CFlush _ _ | CFlushRange _ _ _ _ => Some OpFlush
  | CAdvise _ _ | CAdviseRange _ _ _ _ => Some OpAdvise
  | CLock _ | CLockRange _ _ _ => Some OpLock
  | CUnlock _ | CUnlockRange _ _ _ => Some OpUnlock
  | CClose _ | CGet _ _ | CSet _ _ _ | CDrop _ | CWriteBack _ _ | COther _ => None
  end.

(** The advise calls, with the bytes of the map they are about ([None]: all). *)
Definition advise_call (c : call) : option (Z * advise_kind) :=
  match c with CAdvise k adv | CAdviseRange k _ _ adv => Some (k, adv) | _ => None end.

(** The (un)lock calls on bytes [off .. off+len) of a map of length [n]:
    map, offset, length, operation, pinned afterwards. *)
Definition lock_call (n : Z) (c : call) : option (Z * Z * Z * operation * bool) :=
  match c with
  | CLock k => Some (k, 0, n, OpLock, true)
  | CLockRange k off len => Some (k, off, len, OpLock, true)
  | CUnlock k => Some (k, 0, n, OpUnlock, false)
  | CUnlockRange k off len => Some (k, off, len, OpUnlock, false)
  | _ => None
  end.

(** Synchronous flushes: map and range. *)
Definition sync_call (n : Z) (c : call) : option (Z * Z * Z) :=
  match c with
  | CFlush k FlushSync => Some (k, 0, n)
  | CFlushRange k off len FlushSync => Some (k, off, len)
  | _ => None
  end.

(** Calls that never make a file shorter, and other processes that never do
    (nor longer than the word allows). *)
Definition keeps_length (t : target) (c : call) : Prop :=
  match c with
  | COpen _ o _ | CMap _ o _ => op_truncate o = false /\ oo_truncate (op_open o) = false /\
      (op_resize o = ExtEnd \/ exists n, op_resize o = ExtMin n)
  | COther (OCut _ _) => False
  | COther (OGrow _ sz) => is_usize t sz
  | _ => True
  end.
(** A [MapMut] is only asked for with a writable protection. *)
Definition asks_write (c : call) : Prop :=
  match c with
  | COpen true o _ | CMap true o _ | CAlloc true o => prot_writes (op_protect o) = true
  | _ => True
  end.

(** States of programs all of whose calls satisfy [ok], started with every
    file length fitting the word. *)
Inductive reached_by (t : target) (ok : call -> Prop) : api -> Prop :=
| rb_start w : wf w -> (forall o, is_usize t (o_size (w_obj w o))) -> reached_by t ok (no_maps w)
| rb_step a c : reached_by t ok a -> call_ok t c -> ok c -> reached_by t ok (snd (step t c a)).

(** Calls and acts of others that make files or change their length. *)
Definition resizes (c : call) : bool :=
  match c with
  | COpen _ _ _ | CMap _ _ _ | CAlloc _ _ | COther (OMake _) | COther (OGrow _ _) | COther (OCut _ _) => true
  | _ => false
  end.

(** A history from [a] stores [b] at byte [i] of object [o], through a shared
    [MapMut], or another process writes it. *)
Inductive stored_at (t : target) (o i : Z) (b : byte) : list call -> api -> Prop :=
| sa_here k l j h a : a_live a k = Some l -> l_mut l = true -> l_shared l = true -> 0 <= j < m_len (l_map l) ->
    l_obj l = o -> l_off l + j = i -> fst (step t (CSet k j b) a) = Ret SNone -> stored_at t o i b (CSet k j b :: h) a
| sa_other path off d sync h a : w_fs (a_w a) path = Some o -> off <= i < off + zlen d -> nth (Z.to_nat (i - off)) d 0 = b ->
    stored_at t o i b (COther (OWrite path off d sync) :: h) a
| sa_later c h a : stored_at t o i b h (snd (step t c a)) -> stored_at t o i b (c :: h) a.
