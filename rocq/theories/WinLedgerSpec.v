(** Views and reservations no map and no ring of a program on Windows answers
    for any more. *)
From Verif Require Import Base Spec ErrorModel OsModel MapModel MapSpec RingMapModel MemRingModel ProcModel WinModel WinSpec WinMapModel WinMapSpec WinProcModel WinProcSpec.

(** A view of no thing the program holds. *)
Definition orphan (t : target) (g : prog) (a : Z) : Prop :=
  n_view (g_s g) a <> None /\ forall k x, g_tab g k = Some x -> ~ bases_of t x a.
(** A view of a thing it holds. *)
Definition owned (t : target) (g : prog) (a : Z) : Prop :=
  n_view (g_s g) a <> None /\ exists k x, g_tab g k = Some x /\ bases_of t x a.
(** A reservation of [n] pages that was not there at the start [s0]. *)
Definition left_resv (s0 s : win) (a n : Z) : Prop := n_resv s0 a = None /\ n_resv s a = Some n.
Definition region (s0 s : win) (a n : Z) : Prop := n_view s a = Some n \/ left_resv s0 s a n.

(** Exactly the pages of the views and of the reservations made since the
    start are mapped, each of one view or reservation only; a base address is
    that of one of both; the reservations of the start are still there. *)
Record tiled (t : target) (s0 s : win) : Prop := {
  td_page : forall p, w_vm (n_w s) p <> None <-> exists a n, region s0 s a n /\ in_view t a n p;
  td_apart : forall a n b m p, region s0 s a n -> region s0 s b m -> in_view t a n p -> in_view t b m p -> a = b;
  td_one : forall a n, n_view s a = Some n -> n_resv s a = None;
  td_old : forall a n, n_resv s0 a = Some n -> n_resv s a = Some n
}.

(** The call took back neither an orphan view nor a left reservation, and
    changed none. *)
Record keeps_orphans (t : target) (g g' : prog) : Prop := {
  ko_view : forall a, orphan t g a -> orphan t g' a /\ n_view (g_s g') a = n_view (g_s g) a;
  ko_resv : forall a n, n_resv (g_s g) a = Some n -> n_resv (g_s g') a = Some n
}.

(** The kernel refused to release something between the two states. *)
Definition refused_release (s s' : win) : Prop := exists l, calls s s' l /\ failed_release l.

(** The thing a call drops, the size a call makes a ring of. *)
Definition wp_drops (c : wpcall) (k : Z) : Prop := c = WDrop k \/ c = WAct (ADrop k).
Definition wp_makes (c : wpcall) (hint : Z) : Prop := c = WRing hint \/ c = WInf hint.
Definition empty_map (x : thing) : Prop := match x with TMap v => m_len (v_map v) = 0 | TRing _ _ => False end.

(** [l] lists views and reservations no larger than those of a ring of at
    least [hint] bytes: half of it, or both halves (doubling may wrap). *)
Definition ring_sized (t : target) (hint : Z) (l : list (Z * Z)) : Prop :=
  Forall (fun x => exists len, is_ceil (t_alloc t) hint len /\
    (snd x = npages t len \/ snd x = npages t ((2 * len) mod 2 ^ t_bits t))) l.

(** The states of programs that started in the kernel state [s]. *)
Inductive wpfrom (t : target) (s : win) : wproc -> Prop :=
| wpf_start : fresh_start s -> wpfrom t s (wp_fresh s)
| wpf_step p c : wpfrom t s p -> wpcall_ok t c -> wpfrom t s (snd (wpstep t c p)).

(** Where a new orphan view or reservation comes from. *)
Definition from_drop (t : target) (c : wpcall) (g : prog) (s' : win) (b : Z) : Prop :=
  exists k x, wp_drops c k /\ g_tab g k = Some x /\ bases_of t x b /\ (empty_map x \/ refused_release (g_s g) s').
Definition from_ring (c : wpcall) (s s' : win) : Prop := exists hint, wp_makes c hint /\ refused_release s s'.
Record explained (t : target) (c : wpcall) (g g' : prog) : Prop := {
  ex_view : forall b, orphan t g' b -> orphan t g b \/ from_drop t c g (g_s g') b \/ from_ring c (g_s g) (g_s g');
  ex_resv : forall a n, n_resv (g_s g') a = Some n -> n_resv (g_s g) a = Some n \/ from_ring c (g_s g) (g_s g')
}.

(** The new orphan views and the new reservations are in [l]. *)
Record new_in (t : target) (l : list (Z * Z)) (g g' : prog) : Prop := {
  ni_view : forall a n, n_view (g_s g') a = Some n -> orphan t g' a -> orphan t g a \/ In (a, n) l;
  ni_resv : forall a n, n_resv (g_s g') a = Some n -> n_resv (g_s g) a = Some n \/ In (a, n) l
}.
