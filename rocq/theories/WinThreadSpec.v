(** What the theorems about calls in progress on Windows speak about. *)
From Verif Require Import Base ErrorModel SizeModel OsModel MapModel MapSpec RingMapModel RingMapSpec RingSpec MemRingModel ProcModel
  WinModel WinSpec WinMapModel WinMapSpec WinProcModel WinProcSpec WinThreadModel.

(** Calls with stages; all others are one step. *)
Definition wstaged (c : wpcall) : bool :=
  match c with
  | WAct (AOpen _ _ _) | WAct (AMap _ _ _) | WAct (AAlloc _ _) | WRing _ | WInf _ | WDrop _ => true
  | _ => false
  end.

(** Arguments are values of their Rust types. *)
Definition wev_ok (t : target) (e : wevent) : Prop :=
  match e with
  | WECall c => wpcall_ok t c /\ wstaged c = false
  | WEOpen _ _ o _ | WEMap _ _ o _ => options_ok t o
  | WEAlloc _ _ o => options_ok t o /\ (walloc_fits t o \/ t_checks t = true)
  | WERing _ _ hint => is_usize t hint
  | WEDrop _ _ | WEGo _ => True
  end.

(** Every interleaving, from the start [s0], on which nothing is mapped. *)
Inductive wtreached (t : target) (s0 : win) : wtsys -> Prop :=
| wtr_start : fresh_start s0 -> wtreached t s0 (widle s0)
| wtr_step s e : wtreached t s0 s -> wev_ok t e -> wtreached t s0 (snd (wtstep t e s)).

(** Who occupies an address: a map or ring the program has, or a call in
    progress, which may have reserved it, mapped it already (half a ring) or
    not unmapped it yet. *)
Inductive wowner := WThing (k : Z) | WThread (tid : Z).
Definition wpd_addr (t : target) (pd : wpend) (a : Z) : Prop :=
  match pd with
  | VDone _ _ _ _ _ _ d len (Ret ptr) => ptr_add t ptr d <= a < ptr_add t ptr d + len
  | NDone _ _ _ _ off len (Ret ptr) => ptr_add t ptr off <= a < ptr_add t ptr off + len
  | KRelease _ _ full _ _ _ pg => pg <= a < pg + full
  | KSecond _ len _ _ _ _ pg | KUndo _ len _ _ _ _ pg _ => pg <= a < pg + len
  | KDone _ len _ _ (Ret pg) => pg <= a < pg + 2 * len
  | DSecond r _ => ra_ptr r <= a < ra_ptr r + 2 * ra_len r
  | DFirst r _ => ra_ptr r <= a < ra_ptr r + ra_len r
  | _ => False
  end.
Definition woccupies (t : target) (s : wtsys) (z : wowner) (a : Z) : Prop :=
  match z with
  | WThing k => exists x, g_tab (wp_g (wt_p s)) k = Some x /\ addr_of x <= a < addr_of x + size_of x
  | WThread tid => exists pd, wt_pool s tid = Some pd /\ wpd_addr t pd a
  end.

(** The handle of its section. *)
Definition wpd_handle (pd : wpend) : option Z :=
  match pd with
  | VView _ _ _ _ h _ _ _ _ | VDone _ _ _ _ h _ _ _ _ | NView _ _ h _ _ _ _ | NDone _ _ h _ _ _ _
  | KReserve _ _ _ h _ _ | KRelease _ _ _ h _ _ _ | KFirst _ _ _ h _ _ _ | KSecond _ _ _ h _ _ _ | KUndo _ _ _ h _ _ _ _ | KDone _ _ h _ _ => Some h
  | _ => None
  end.

(** Events after which other bytes may be read through thing [k]. *)
Definition we_touches (e : wevent) (k : Z) : Prop :=
  match e with WECall c => wp_touches c k | WEDrop _ k' => k' = k | _ => False end.

(** The thread that begins a call with this event; the event that begins the
    call [c]; the call made by [tid] without interruption. *)
Definition wstarts (e : wevent) : option Z :=
  match e with WEOpen tid _ _ _ | WEMap tid _ _ _ | WEAlloc tid _ _ | WERing tid _ _ | WEDrop tid _ => Some tid | _ => None end.
Definition wstart_of (tid : Z) (c : wpcall) : option wevent :=
  match c with
  | WAct (AOpen mut o path) => Some (WEOpen tid mut o path)
  | WAct (AMap mut o fd) => Some (WEMap tid mut o fd)
  | WAct (AAlloc mut o) => Some (WEAlloc tid mut o)
  | WRing hint => Some (WERing tid false hint)
  | WInf hint => Some (WERing tid true hint)
  | WDrop k => Some (WEDrop tid k)
  | _ => None
  end.
Definition walone (t : target) (fuel : nat) (tid : Z) (e : wevent) (s : wtsys) : wtresult * wtsys :=
  let '(r, s1) := wtstep t e s in
  match wt_pool s1 tid with Some _ => wfinish t fuel tid s1 | None => (r, s1) end.
Definition as_wtresult (x : wpresult) : wtresult :=
  match x with WGot r => WTMap r | WNew r => WTRing r | WDropped r => WTDrop r | WNone => WTNone | x => WTCall x end.

(** How many system calls a call in progress makes yet, at most. *)
Definition wsteps_left (pd : wpend) : nat :=
  match pd with
  | VOpen _ _ _ => 8 | VStat _ _ _ _ => 7 | VCut _ _ _ _ _ => 6 | VSize _ _ _ _ _ => 5 | VCreate _ _ _ _ _ => 4
  | VView _ _ _ _ _ _ _ _ _ => 3 | VDone _ _ _ _ _ _ _ _ _ => 2 | VClose _ _ => 1
  | NCreate _ _ _ _ _ => 3 | NView _ _ _ _ _ _ _ => 2 | NDone _ _ _ _ _ _ _ => 1
  | KCreate _ _ _ => 32
  | KReserve _ _ _ _ _ more => 5 * more + 6
  | KRelease _ _ _ _ _ more _ => 5 * more + 5
  | KFirst _ _ _ _ _ more _ => 5 * more + 4
  | KSecond _ _ _ _ _ more _ => 5 * more + 3
  | KUndo _ _ _ _ _ more _ _ => 5 * more + 2
  | KDone _ _ _ _ _ => 1
  | DSecond _ _ => 2 | DFirst _ _ => 1
  end%nat.
Fixpoint wown_steps (tid : Z) (h : list wevent) : nat :=
  match h with
  | [] => 0
  | WEGo i :: h => if i =? tid then S (wown_steps tid h) else wown_steps tid h
  | _ :: h => wown_steps tid h
  end.

(** The calls made on ring [k], and their answers. *)
Fixpoint wecalls (h : list wevent) : list wpcall :=
  match h with
  | [] => []
  | WECall c :: h => c :: wecalls h
  | WEDrop _ k :: h => WDrop k :: wecalls h
  | _ :: h => wecalls h
  end.
Fixpoint weresults (h : list wevent) (xs : list wtresult) : list wpresult :=
  match h, xs with
  | WECall _ :: h, WTCall x :: xs => x :: weresults h xs
  | WEDrop _ _ :: h, _ :: xs => WNone :: weresults h xs
  | _ :: h, _ :: xs => weresults h xs
  | _, _ => []
  end.
