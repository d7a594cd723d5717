(** Specification side of the mapping properties: what the documentation of
    [Options] promises, and observations of the machine.  Written without the
    functions of MapModel (only its types). *)
From Verif Require Import Base ErrorModel OsModel MapModel.

(** Length of a file after [truncate] and [resize] (documentation at
    src/map.rs:671-683, 889-1012). *)
Definition final_len (trunc : bool) (rs : extent) (l : Z) : Z :=
  let l := if trunc then 0 else l in
  match rs with
  | ExtEnd => l
  | ExtExact n => n
  | ExtMin n => Z.max l n
  | ExtMax n => Z.min l n
  end.
(** How many leading bytes survive. *)
Definition kept_len (trunc : bool) (rs : extent) (l : Z) : Z :=
  Z.min (if trunc then 0 else l) (final_len trunc rs l).

(** The map length asked for does not exist in a file of length [l]
    (documentation at src/map.rs:745-867). *)
Definition out_of_file (e : extent) (off l : Z) : Prop :=
  l < off \/ exists n, (e = ExtExact n \/ e = ExtMin n) /\ l < off + n.

(** [n] is the length a map of a file of length [l] must have. *)
Definition right_len (e : extent) (off l n : Z) : Prop :=
  match e with
  | ExtEnd => n = l - off
  | ExtMin _ => n = l - off
  | ExtExact k => n = k
  | ExtMax k => n = Z.min k (l - off)
  end.

(** Arguments are machine words. *)
Definition extent_ok (t : target) (e : extent) : Prop :=
  match e with ExtEnd => True | ExtExact n | ExtMin n | ExtMax n => is_usize t n end.
Definition options_ok (t : target) (o : options) : Prop :=
  extent_ok t (op_resize o) /\ extent_ok t (op_len o) /\ is_usize t (op_offset o).

(** States of the kernel that can occur: entries, descriptors and names refer
    to existing objects, descriptors are not negative, lengths neither. *)
Record wf (w : world) : Prop := {
  wf_vm : forall p e, w_vm w p = Some e -> p_obj e < w_next w;
  wf_fd : forall fd f, w_fd w fd = Some f -> 0 <= fd /\ fd_obj f < w_next w;
  wf_fs : forall path o, w_fs w path = Some o -> o < w_next w;
  wf_size : forall o, 0 <= o_size (w_obj w o) < 2 ^ 64
}.

(** The pages a map occupies. *)
Definition first_page (t : target) (m : mapping) : Z := m_ptr m / t_page t.
Definition page_count (t : target) (m : mapping) : Z := npages t (m_ptr m mod t_page t + m_len m).
Definition own_page (t : target) (m : mapping) (p : Z) : Prop :=
  first_page t m <= p < first_page t m + page_count t m.

(** [m] is a view of bytes [off ..] of object [o]: its pages are mapped,
    readable and show consecutive pages of the object, shared or private;
    [maxw] tells whether the kernel would allow writing. *)
Record backed (t : target) (w : world) (m : mapping) (o off : Z) (shared maxw : bool) : Prop := {
  bk_len : 0 <= m_len m;
  bk_cnt : 0 < m_ptr m mod t_page t + m_len m;
  bk_lo : t_page t <= m_ptr m;
  bk_hi : t_page t * (first_page t m + page_count t m) <= 2 ^ t_bits t - t_page t;
  bk_off : 0 <= off /\ off mod t_page t = m_ptr m mod t_page t;
  bk_pages : forall p, own_page t m p -> exists e, w_vm w p = Some e /\ p_obj e = o /\
     p_idx e = off / t_page t + (p - first_page t m) /\ p_shared e = shared /\ p_maxw e = maxw /\
     p_r e = true /\ (shared = true -> p_copy e = None)
}.

(** What a protection means (documentation at src/lib.rs:168-177). *)
Definition prot_writes (p : protect) : bool :=
  match p with ReadWrite | ReadCopy => true | ReadOnly | ReadExec => false end.
Definition prot_shares (p : protect) : bool :=
  match p with ReadOnly | ReadWrite => true | ReadCopy | ReadExec => false end.
Definition prot_execs (p : protect) : bool :=
  match p with ReadExec => true | ReadOnly | ReadWrite | ReadCopy => false end.

(** [m] is new in [w']: its pages were free and now hold a view of [o]. *)
Record created (t : target) (w w' : world) (m : mapping) (o off : Z) (p : protect) (maxw : bool) : Prop := {
  cr_backed : backed t w' m o off (prot_shares p) maxw;
  cr_free : forall q, own_page t m q -> w_vm w q = None;
  cr_rest : forall q, ~ own_page t m q -> w_vm w' q = w_vm w q;
  cr_fresh : forall q e, own_page t m q -> w_vm w' q = Some e ->
     p_copy e = None /\ p_lock e = false /\ p_w e = prot_writes p /\ p_x e = prot_execs p
}.

(** The additions inside [alloc] stay below the word size. *)
Definition alloc_fits (t : target) (o : options) : Prop :=
  let off := op_offset o mod t_page t in
  match op_len o with
  | ExtEnd => off + 1 + t_page t < 2 ^ t_bits t
  | ExtMin l => off + l + t_page t < 2 ^ t_bits t
  | ExtExact l | ExtMax l => off + l < 2 ^ t_bits t
  end.
(** The length promised for an anonymous map (src/lib.rs:211-223 and
    src/map.rs:745-867): the rest of the allocation unit(s) or exactly [l]. *)
Definition alloc_len (t : target) (o : options) (n : Z) : Prop :=
  let off := op_offset o mod t_page t in
  match op_len o with
  | ExtEnd => n = t_page t - off
  | ExtMin l => l <= n < l + t_page t /\ (off + n) mod t_page t = 0
  | ExtExact l | ExtMax l => n = l
  end.
