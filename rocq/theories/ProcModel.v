(** A program that uses maps and rings together (POSIX): any history of calls,
    against any behaviour of the kernel.  The maps are those of ApiModel.v;
    the rings are allocated by RingMapModel.v and their code (MemRingModel.v)
    loads from and stores to the memory of the same kernel.

    A ring is named by the number of rings made before it.  A call that Rust's
    types rule out (on a ring that does not exist, or of the other type) does
    nothing.  A ring whose call panicked can still be used and dropped
    ([catch_unwind]). *)
From Verif Require Import Base ErrorModel RingSpec OsModel MapModel ApiModel RingMapModel MemRingModel.

Inductive held := HRing (k : kring) | HInf (k : kiring).
Record proc := { pc_a : api; pc_ring : Z -> option held; pc_cnt : Z }.

Inductive pcall :=
| PMap (c : call)
| PRing (hint : Z) (clock : nat -> Z)      (* Ring::new *)
| PInf (hint : Z) (clock : nat -> Z)       (* InfiniteRing::new *)
| PCall (k : Z) (o : rop)
| PICall (k : Z) (o : irop)
| PDrop (k : Z).

Inductive presult :=
| AMap (r : out error seen)
| ANew (r : out error Z)                   (* the number of the ring *)
| ARing (r : out io_error rout)
| ADrop (r : out error unit)
| ANone.

Section Proc.
  Variable t : target.
  Variable plat : platform.

  Definition h_alloc (h : held) : ring_alloc :=
    match h with
    | HRing k => {| ra_ptr := k_ptr k; ra_len := k_len k |}
    | HInf k => {| ra_ptr := ki_ptr k; ra_len := ki_len k |}
    end.

  Definition pc_w (p : proc) : world := a_w (pc_a p).
  Definition pc_set_w (p : proc) (w : world) : proc := {| pc_a := set_w (pc_a p) w; pc_ring := pc_ring p; pc_cnt := pc_cnt p |}.
  Definition pc_put (p : proc) (w : world) (k : Z) (x : option held) : proc :=
    {| pc_a := set_w (pc_a p) w; pc_ring := put (pc_ring p) k x; pc_cnt := pc_cnt p |}.

  (** src/io/ring.rs:72-81, 233-242 *)
  Definition new_ring (mk : Z -> Z -> held) (hint : Z) (clock : nat -> Z) (p : proc) : presult * proc :=
    match ring_new t plat clock hint (pc_w p) with
    | (Ret a, w) => (ANew (Ret (pc_cnt p)),
        {| pc_a := set_w (pc_a p) w; pc_ring := put (pc_ring p) (pc_cnt p) (Some (mk (ra_ptr a) (ra_len a))); pc_cnt := pc_cnt p + 1 |})
    | (Err e, w) => (ANew (Err e), pc_set_w p w)
    | (Panic, w) => (ANew Panic, pc_set_w p w)
    | (Fault, w) => (ANew Fault, pc_set_w p w)
    | (Blocked, w) => (ANew Blocked, pc_set_w p w)
    end.

  Definition pstep (c : pcall) (p : proc) : presult * proc :=
    match c with
    | PMap c => let '(r, a) := step t c (pc_a p) in (AMap r, {| pc_a := a; pc_ring := pc_ring p; pc_cnt := pc_cnt p |})
    | PRing hint clock => new_ring (fun ptr len => HRing (kring_new ptr len)) hint clock p
    | PInf hint clock => new_ring (fun ptr len => HInf (kiring_new ptr len)) hint clock p
    | PCall k o =>
      match pc_ring p k with
      | Some (HRing s) =>
        let '(r, (s', w)) := kring_step t world (load t) (store t) o s (pc_w p) in (ARing r, pc_put p w k (Some (HRing s')))
      | _ => (ANone, p)
      end
    | PICall k o =>
      match pc_ring p k with
      | Some (HInf s) =>
        let '(r, (s', w)) := kiring_step t world (load t) (store t) o s (pc_w p) in (ARing r, pc_put p w k (Some (HInf s')))
      | _ => (ANone, p)
      end
    | PDrop k =>
      match pc_ring p k with
      | Some h => let '(r, w) := ring_drop t (h_alloc h) (pc_w p) in (ADrop r, pc_put p w k None)
      | None => (ANone, p)
      end
    end.

  (** A history: the results of its calls and the state after it. *)
  Fixpoint prun (h : list pcall) (p : proc) : list presult * proc :=
    match h with
    | [] => ([], p)
    | c :: h =>
      let '(x, p1) := pstep c p in
      let '(xs, p2) := prun h p1 in (x :: xs, p2)
    end.
End Proc.

(** Nothing held yet. *)
Definition fresh (w : world) : proc := {| pc_a := no_maps w; pc_ring := fun _ => None; pc_cnt := 0 |}.
