(** What the theorems about calls in progress speak about. *)
From Verif Require Import Base ErrorModel SizeModel OsModel OthersModel MapModel MapSpec ApiModel ApiSpec RingMapModel RingMapSpec
  MemRingModel ProcModel ProcSpec ThreadModel.

(** The descriptor a call in progress works on, and whether it is the call's
    own: nobody else has it. *)
Definition pd_fd (pd : pending) : option Z :=
  match pd with
  | MOpen _ _ _ | ROpen _ _ _ _ _ => None
  | MStat _ _ _ fd | MCut _ _ _ fd _ | MSize _ _ _ fd _ | MMap _ _ _ fd _ | MClose fd _
  | RUnlink _ _ fd _ | RSize _ _ fd | RReserve _ _ fd | RFirst _ _ fd _ | RSecond _ _ fd _ | RUndo _ fd _ _ | RClose _ _ fd _ => Some fd
  end.
Definition pd_owns (pd : pending) : bool :=
  match pd with
  | MStat _ own _ _ | MCut _ own _ _ _ | MSize _ own _ _ _ | MMap _ own _ _ _ => own
  | _ => true
  end.

(** The addresses it has reserved. *)
Definition pd_addr (pd : pending) (a : Z) : Prop :=
  match pd with
  | RFirst _ len _ pg | RSecond _ len _ pg | RUndo len _ pg _ | RClose _ len _ (Ret pg) => pg <= a < pg + 2 * len
  | _ => False
  end.
Definition pd_page (t : target) (pd : pending) (p : Z) : Prop := pd_addr pd (t_page t * p).

(** Calls that are one step: at most one system call. *)
Definition one_step (c : pcall) : bool :=
  match c with
  | PMap (COpen _ _ _) | PMap (CMap _ _ _) | PRing _ _ | PInf _ _ => false
  | _ => true
  end.

(** What Rust's types allow: arguments are values of their types; a file that
    is used by a call in progress (borrowed or owned) is not closed, and a
    file given to [map_if] is an open one that belongs to no other call. *)
Definition ev_ok (t : target) (s : tsys) (e : event) : Prop :=
  match e with
  | ECall c => pcall_ok t c /\ one_step c = true /\
      forall fd tid pd, c = PMap (CClose fd) -> ts_pool s tid = Some pd -> pd_fd pd <> Some fd
  | EOpen _ _ o path => options_ok t o /\ 0 <= path
  | EMap _ _ o fd => options_ok t o /\ w_fd (pc_w (ts_p s)) fd <> None /\
      forall tid pd, ts_pool s tid = Some pd -> pd_owns pd = true -> pd_fd pd <> Some fd
  | ERing _ _ hint _ => is_usize t hint
  | EGo _ => True
  end.

(** Every interleaving. *)
Inductive treached (t : target) (plat : platform) : tsys -> Prop :=
| tr_start w : wf w -> treached t plat (idle w)
| tr_step s e : treached t plat s -> ev_ok t s e -> treached t plat (snd (tstep t plat e s)).
Inductive tpath (t : target) (plat : platform) : tsys -> list event -> tsys -> Prop :=
| tp_nil s : tpath t plat s [] s
| tp_cons s e h s' : ev_ok t s e -> tpath t plat (snd (tstep t plat e s)) h s' -> tpath t plat s (e :: h) s'.

(** Who occupies an address. *)
Inductive holder := HoldMap (k : Z) | HoldRing (k : Z) | HoldCall (tid : Z).
Definition occupies (s : tsys) (x : holder) (a : Z) : Prop :=
  match x with
  | HoldMap k => exists l, a_live (pc_a (ts_p s)) k = Some l /\ map_addr l a
  | HoldRing k => exists h, pc_ring (ts_p s) k = Some h /\ ring_addr h a
  | HoldCall tid => exists pd, ts_pool s tid = Some pd /\ pd_addr pd a
  end.

(** What an event is about. *)
Definition acts_for (e : event) (x : holder) : Prop :=
  match e, x with
  | ECall (PMap c), HoldMap k => subject c = Some k
  | ECall c, HoldRing k => ring_subject c = Some k
  | EGo tid, HoldCall tid' => tid = tid'
  | _, _ => False
  end.

(** The calls made on ring [k], and their answers. *)
Definition as_pcall (e : event) : list pcall := match e with ECall c => [c] | _ => [] end.
Fixpoint pcalls (h : list event) : list pcall := match h with [] => [] | e :: h => as_pcall e ++ pcalls h end.
Definition as_presult (x : tresult) : list presult := match x with TCall x => [x] | _ => [] end.
Fixpoint presults (xs : list tresult) : list presult := match xs with [] => [] | x :: xs => as_presult x ++ presults xs end.

(** The thread that begins a call with this event. *)
Definition starts (e : event) : option Z :=
  match e with EOpen tid _ _ _ | EMap tid _ _ _ | ERing tid _ _ _ => Some tid | _ => None end.
(** The event that begins [c] in thread [tid]. *)
Definition start_of (tid : Z) (c : pcall) : option event :=
  match c with
  | PMap (COpen mut o path) => Some (EOpen tid mut o path)
  | PMap (CMap mut o fd) => Some (EMap tid mut o fd)
  | PRing hint clock => Some (ERing tid false hint clock)
  | PInf hint clock => Some (ERing tid true hint clock)
  | _ => None
  end.
(** Thread [tid] begins [c] and runs on, nobody else does anything. *)
Definition alone (t : target) (plat : platform) (fuel : nat) (tid : Z) (e : event) (s : tsys) : tresult * tsys :=
  let '(r, s1) := tstep t plat e s in
  match ts_pool s1 tid with Some _ => finish t plat fuel tid s1 | None => (r, s1) end.
Definition as_tresult (x : presult) : tresult :=
  match x with AMap r => TMap r | ANew r => TRing r | x => TCall x end.

(** How many system calls a call in progress makes yet, at most; a ring whose
    name is taken tries again (posix/memfd.rs:34-61), hence [Anonymous]. *)
Definition steps_left (pd : pending) : nat :=
  match pd with
  | MOpen _ _ _ => 6 | MStat _ _ _ _ => 5 | MCut _ _ _ _ _ => 4 | MSize _ _ _ _ _ => 3 | MMap _ _ _ _ _ => 2 | MClose _ _ => 1
  | ROpen _ _ _ _ _ => 7 | RUnlink _ _ _ _ => 7 | RSize _ _ _ => 6 | RReserve _ _ _ => 5 | RFirst _ _ _ _ => 4 | RSecond _ _ _ _ => 3
  | RUndo _ _ _ _ => 2 | RClose _ _ _ _ => 1
  end%nat.
Definition searching (pd : pending) : bool := match pd with ROpen _ _ _ _ _ => true | _ => false end.
Fixpoint own_steps (tid : Z) (h : list event) : nat :=
  match h with
  | [] => 0
  | EGo i :: h => if i =? tid then S (own_steps tid h) else own_steps tid h
  | _ :: h => own_steps tid h
  end.
