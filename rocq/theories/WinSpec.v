(** Specification side of the Windows properties. *)
From Verif Require Import Base ErrorModel OsModel MapModel MapSpec RingMapModel WinModel.

(** The calls made between two states, newest first. *)
Definition calls (s s' : win) (l : list (wcall * bool)) : Prop := n_log s' = l ++ n_log s.

(** Placement attempts: calls of VirtualAlloc. *)
Definition attempts (l : list (wcall * bool)) : nat :=
  length (filter (fun x => match fst x with WReserve => true | _ => false end) l).

(** The kernel refused to release something: VirtualFree or UnmapViewOfFile
    failed. *)
Definition failed_release (l : list (wcall * bool)) : Prop :=
  exists a, In (WRelease a, false) l \/ In (WUnmap a, false) l.

(** The handle was closed, after everything else. *)
Definition closed_last (l : list (wcall * bool)) (h : Z) : Prop := exists l', l = (WClose h, true) :: l'.

(** Address space, views and reservations are the same. *)
Record same_space (s s' : win) : Prop := {
  ss_vm : forall p, w_vm (n_w s') p = w_vm (n_w s) p;
  ss_view : forall a, n_view s' a = n_view s a;
  ss_resv : forall a, n_resv s' a = n_resv s a
}.

(** No handle more or less, the files, what they hold and everything in memory
    that existed before are the same. *)
Record same_rest (s s' : win) : Prop := {
  sr_sec : forall h, n_sec s' h = n_sec s h;
  sr_fd : forall fd, w_fd (n_w s') fd = w_fd (n_w s) fd;
  sr_fs : forall p, w_fs (n_w s') p = w_fs (n_w s) p;
  sr_cache : forall o i, n_cache s' o i = n_cache s o i;
  sr_obj : forall o, o < w_next (n_w s) -> w_obj (n_w s') o = w_obj (n_w s) o
}.

(** Two adjacent views of [len] bytes at [pg] and nothing else was added. *)
Record two_views_added (t : target) (s s' : win) (pg len : Z) : Prop := {
  tv_in : forall p, pg <= t_page t * p < pg + 2 * len -> w_vm (n_w s) p = None;
  tv_out : forall p, ~ pg <= t_page t * p < pg + 2 * len -> w_vm (n_w s') p = w_vm (n_w s) p;
  tv_view : forall a, a <> pg -> a <> pg + len -> n_view s' a = n_view s a;
  tv_resv : forall a, n_resv s' a = n_resv s a
}.

(** One view of [n] pages at [pg] and nothing else was added. *)
Record one_view_added (t : target) (s s' : win) (pg n : Z) : Prop := {
  ov_new : n_view s' pg = Some n;
  ov_in : forall p, pg / t_page t <= p < pg / t_page t + n -> w_vm (n_w s) p = None;
  ov_out : forall p, ~ pg / t_page t <= p < pg / t_page t + n -> w_vm (n_w s') p = w_vm (n_w s) p;
  ov_view : forall a, a <> pg -> n_view s' a = n_view s a;
  ov_resv : forall a, n_resv s' a = n_resv s a
}.

(** Every page shows an object that exists. *)
Definition known_objects (s : win) : Prop := forall p e, w_vm (n_w s) p = Some e -> p_obj e < w_next (n_w s).

(** Exactly the view at [pg] is gone. *)
Definition view_removed (t : target) (s s' : win) (pg : Z) : Prop := exists n,
  n_view s pg = Some n /\
  (forall p, w_vm (n_w s') p = if (pg / t_page t <=? p) && (p <? pg / t_page t + n) then None else w_vm (n_w s) p) /\
  (forall a, n_view s' a = if a =? pg then None else n_view s a) /\
  (forall a, n_resv s' a = n_resv s a).

(** ** Retries *)

(** A lost placement attempt: the reservation is granted at [a] and released,
    then the kernel refuses the first view with [e], or grants it and refuses
    the second one and unmaps the first. *)
Inductive lost := LostFirst (a x e : Z) | LostSecond (a x y e z : Z).
Definition lost_at (r : lost) : Z := match r with LostFirst a _ _ | LostSecond a _ _ _ _ => a end.
Definition lost_answers (r : lost) : list answer :=
  match r with
  | LostFirst a x e => [Grant a; Grant x; Refuse e]
  | LostSecond a x y e z => [Grant a; Grant x; Grant y; Refuse e; Grant z]
  end.
Definition lost_error (r : lost) : error :=
  match r with
  | LostFirst _ _ e => last_os_error RingPrimary e
  | LostSecond _ _ _ e _ => last_os_error RingSecondary e
  end.

(** A place where two views of [len] bytes can go. *)
Record place (t : target) (s : win) (len a : Z) : Prop := {
  pc_align : a mod t_alloc t = 0;
  pc_low : t_page t <= a;
  pc_high : a + 2 * len <= 2 ^ t_bits t - t_page t;
  pc_free : forall p, a <= t_page t * p < a + 2 * len -> w_vm (n_w s) p = None;
  pc_first : n_view s a = None /\ n_resv s a = None;
  pc_second : n_view s (a + len) = None /\ n_resv s (a + len) = None
}.

(** ** Single views *)

(** The pages of a view of object [o] from byte [off] on, at [pg]; whether they
    are, and may later be made, writable. *)
Definition shows (t : target) (s : win) (pg n o off : Z) (writes shared : bool) : Prop :=
  forall p, pg / t_page t <= p < pg / t_page t + n -> exists e, w_vm (n_w s) p = Some e /\ p_obj e = o /\
    p_idx e = off / t_page t + (p - pg / t_page t) /\ p_r e = true /\ p_w e = writes /\ p_shared e = shared /\
    p_copy e = None /\ p_lock e = false /\ p_maxw e = writes.

(** Whether stores reach the object: everything but [ReadCopy] is shared on
    Windows. *)
Definition win_shares (p : protect) : bool := match p with ReadCopy => false | _ => true end.

(** Exactly the pages meeting [pg .. pg + len) changed, by [g]. *)
Definition pages_changed (t : target) (g : pte -> pte) (s s' : win) (pg len : Z) : Prop :=
  forall p, if (pg / t_page t <=? p) && (p <? (pg + len - 1) / t_page t + 1)
            then exists e, w_vm (n_w s) p = Some e /\ w_vm (n_w s') p = Some (g e)
            else w_vm (n_w s') p = w_vm (n_w s) p.

(** [view_of s s' o off L p pg]: one view of [L] bytes of object [o] was
    added at [pg]. *)
Definition view_of (t : target) (s s' : win) (o off L : Z) (p : protect) (pg : Z) : Prop :=
  0 < L /\ pg mod t_alloc t = 0 /\ t_page t <= pg /\ pg + L <= 2 ^ t_bits t - t_page t /\
  one_view_added t s s' pg (npages t L) /\ shows t s' pg (npages t L) o off (prot_writes p) (win_shares p).

(** What protect, lock and unlock leave alone. *)
Definition other_state (s s' : win) : Prop :=
  (forall h, n_sec s' h = n_sec s h) /\ (forall a, n_view s' a = n_view s a) /\ (forall a, n_resv s' a = n_resv s a) /\
  (forall o i, n_cache s' o i = n_cache s o i) /\ (forall o, w_obj (n_w s') o = w_obj (n_w s) o) /\
  (forall fd, w_fd (n_w s') fd = w_fd (n_w s) fd) /\ (forall q, w_fs (n_w s') q = w_fs (n_w s) q) /\ w_next (n_w s') = w_next (n_w s).

Definition win_prot (p : protect) : prot :=
  {| pr_r := true; pr_w := prot_writes p; pr_x := match p with ReadExec => true | _ => false end |}.

(** What flush leaves alone. *)
Definition memory_kept (s s' : win) : Prop :=
  same_space s s' /\ (forall h, n_sec s' h = n_sec s h) /\ (forall q, w_fs (n_w s') q = w_fs (n_w s) q) /\
  (forall fd, w_fd (n_w s') fd = w_fd (n_w s) fd) /\
  (forall o, o_size (w_obj (n_w s') o) = o_size (w_obj (n_w s) o) /\ forall i, o_data (w_obj (n_w s') o) i = o_data (w_obj (n_w s) o) i) /\
  w_next (n_w s') = w_next (n_w s).
