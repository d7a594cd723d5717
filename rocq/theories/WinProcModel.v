(** A program that uses maps and rings together on Windows: any history of
    calls, against any behaviour of the kernel.  Maps, and the memory of
    rings, are those of WinMapModel.v; the code of the rings (MemRingModel.v)
    loads from and stores to the memory of the same kernel.

    Maps and rings are named by the number of things made before them.  A call
    that Rust's types rule out (on a thing that does not exist, or of another
    type) does nothing.  A ring whose call panicked can still be used and
    dropped ([catch_unwind]). *)
From Verif Require Import Base ErrorModel RingSpec OsModel MapModel RingMapModel MemRingModel ProcModel WinModel WinMapModel.

(** [wp_ring]: the values of the rings; their memory is in [wp_g]. *)
Record wproc := { wp_g : prog; wp_ring : Z -> option ProcModel.held }.

Inductive wpcall :=
| WAct (a : act)                 (* on maps and files *)
| WRing (hint : Z)               (* Ring::new *)
| WInf (hint : Z)                (* InfiniteRing::new *)
| WCall (k : Z) (o : rop)
| WICall (k : Z) (o : irop)
| WDrop (k : Z).                 (* of a ring *)

Inductive wpresult :=
| WGot (r : out error got)
| WNew (r : out error Z)         (* the number of the ring *)
| WAns (r : out io_error rout)
| WDropped (r : out error unit)
| WNone.

(** The thing a call on maps is made on. *)
Definition act_thing (a : act) : option Z :=
  match a with
  | AToMut k | AToMap k | AGet k _ | ASet k _ _ | AFlush k _ _ | AFlushRange k _ _ _ _ | AAdvise k _ | AAdviseRange k _ _ _
  | ALock k | ALockRange k _ _ | AUnlock k | AUnlockRange k _ _ | ADrop k => Some k
  | AOpen _ _ _ | AMap _ _ _ | AAlloc _ _ | AClose _ | ARing _ | AOther _ => None
  end.

Section Proc.
  Variable t : target.

  (** Byte loads and stores through the pointers of a ring
      (src/io/mod.rs:44-63, 95-114). *)
  Definition wpeek (s : win) (a : Z) : out io_error byte := load t (n_w s) a.
  Definition wpoke (a : Z) (b : byte) (s : win) : out io_error unit * win := lift (store t a b) s.

  (** A call on maps and files: not one that makes a ring, and not on a ring. *)
  Definition on_maps (p : wproc) (a : act) : bool :=
    match a with
    | ARing _ => false
    | _ => match act_thing a with
           | Some k => match wp_ring p k with Some _ => false | None => true end
           | None => true
           end
    end.

  (** src/io/ring.rs:72-81, 233-242 *)
  Definition wp_new (mk : Z -> Z -> ProcModel.held) (hint : Z) (p : wproc) : wpresult * wproc :=
    let g := wp_g p in
    match win_ring_new t hint (g_s g) with
    | (Ret a, s) => (WNew (Ret (g_cnt g)),
        {| wp_g := g_add g s (TRing a (w_next (n_w (g_s g)))); wp_ring := put (wp_ring p) (g_cnt g) (Some (mk (ra_ptr a) (ra_len a))) |})
    | (Err e, s) => (WNew (Err e), {| wp_g := g_set g s; wp_ring := wp_ring p |})
    | (Panic, s) => (WNew Panic, {| wp_g := g_set g s; wp_ring := wp_ring p |})
    | (Fault, s) => (WNew Fault, {| wp_g := g_set g s; wp_ring := wp_ring p |})
    | (Blocked, s) => (WNew Blocked, {| wp_g := g_set g s; wp_ring := wp_ring p |})
    end.

  Definition wp_put (p : wproc) (s : win) (k : Z) (h : ProcModel.held) : wproc :=
    {| wp_g := g_set (wp_g p) s; wp_ring := put (wp_ring p) k (Some h) |}.

  Definition wpstep (c : wpcall) (p : wproc) : wpresult * wproc :=
    let g := wp_g p in
    match c with
    | WAct a => if on_maps p a
                then let '(r, g') := act_step t a g in (WGot r, {| wp_g := g'; wp_ring := wp_ring p |})
                else (WNone, p)
    | WRing hint => wp_new (fun ptr len => HRing (kring_new ptr len)) hint p
    | WInf hint => wp_new (fun ptr len => HInf (kiring_new ptr len)) hint p
    | WCall k o =>
      match wp_ring p k with
      | Some (HRing v) =>
        let '(r, (v', s)) := kring_step t win wpeek wpoke o v (g_s g) in (WAns r, wp_put p s k (HRing v'))
      | _ => (WNone, p)
      end
    | WICall k o =>
      match wp_ring p k with
      | Some (HInf v) =>
        let '(r, (v', s)) := kiring_step t win wpeek wpoke o v (g_s g) in (WAns r, wp_put p s k (HInf v'))
      | _ => (WNone, p)
      end
    | WDrop k =>
      match wp_ring p k with
      | Some h => let '(r, s) := win_ring_drop t (h_alloc h) (g_s g) in
                  (WDropped r, {| wp_g := g_put g s k None; wp_ring := put (wp_ring p) k None |})
      | None => (WNone, p)
      end
    end.

  (** A history: the results of its calls and the state after it. *)
  Fixpoint wprun (h : list wpcall) (p : wproc) : list wpresult * wproc :=
    match h with
    | [] => ([], p)
    | c :: h =>
      let '(x, p1) := wpstep c p in
      let '(xs, p2) := wprun h p1 in (x :: xs, p2)
    end.
End Proc.

(** Nothing held yet. *)
Definition wp_fresh (s : win) : wproc := {| wp_g := holds_nothing s; wp_ring := fun _ => None |}.
