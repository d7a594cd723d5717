(** What the theorems about calls in progress on macOS and iOS speak about. *)
From Verif Require Import Base ErrorModel SizeModel OsModel OthersModel MapModel MapSpec ApiModel ApiSpec RingMapModel RingMapSpec MachModel
  MemRingModel ProcModel ProcSpec MachProcModel MachProcSpec ThreadModel ThreadSpec MachThreadModel.

(** The addresses a ring being made has reserved. *)
Definition mpd_addr (pd : mpending) (a : Z) : Prop :=
  match pd with
  | AAny _ _ => False
  | AFixed _ len addr | AEntry _ len addr | AMap _ len _ addr _ | AUndo len addr _ => addr <= a < addr + 2 * len
  end.
Definition mpd_page (t : target) (pd : mpending) (q : Z) : Prop := mpd_addr pd (t_page t * q).

(** As on POSIX (ThreadSpec.v); without overflow checks a ring above half of
    the address space is excluded (C31: [2 * len] wraps). *)
Definition mev_ok (t : target) (s : msys) (e : event) : Prop :=
  ev_ok t (ms_t s) e /\
  match e with
  | ERing _ _ hint _ => t_checks t = true \/ hint <= 2 ^ (t_bits t - 1) - t_alloc t
  | _ => True
  end.

(** Every interleaving. *)
Inductive mtreached (t : target) : msys -> Prop :=
| mtr_start w ports : wf w -> mtreached t (midle w ports)
| mtr_step s e : mtreached t s -> mev_ok t s e -> mtreached t (snd (mtstep t e s)).
Inductive mtpath (t : target) : msys -> list event -> msys -> Prop :=
| mtp_nil s : mtpath t s [] s
| mtp_cons s e h s' : mev_ok t s e -> mtpath t (snd (mtstep t e s)) h s' -> mtpath t s (e :: h) s'.

(** Who occupies an address. *)
Definition moccupies (s : msys) (x : holder) (a : Z) : Prop :=
  match x with
  | HoldMap k => exists l, a_live (pc_a (ms_p s)) k = Some l /\ map_addr l a
  | HoldRing k => exists h, pc_ring (ms_p s) k = Some h /\ ring_addr h a
  | HoldCall tid => exists pd, ms_ring s tid = Some pd /\ mpd_addr pd a
  end.

(** Thread [tid] begins a call and runs on, nobody else does anything. *)
Definition malone (t : target) (fuel : nat) (tid : Z) (e : event) (s : msys) : tresult * msys :=
  let '(r, s1) := mtstep t e s in
  if busy s1 tid then mfinish t fuel tid s1 else (r, s1).

(** How many kernel calls a call in progress makes yet, at most. *)
Definition msteps_left (s : msys) (tid : Z) : nat :=
  match ms_ring s tid, ts_pool (ms_t s) tid with
  | Some pd, _ => match pd with AAny _ _ => 5 | AFixed _ _ _ => 4 | AEntry _ _ _ => 3 | AMap _ _ _ _ _ => 2 | AUndo _ _ _ => 1 end
  | None, Some pd => steps_left pd
  | None, None => 0
  end%nat.
