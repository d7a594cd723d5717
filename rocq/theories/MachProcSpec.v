(** What the theorems about programs with maps and rings on macOS and iOS
    speak about. *)
From Verif Require Import Base ErrorModel OsModel MapModel MapSpec ApiModel ApiSpec RingMapModel RingMapSpec MachModel MachSpec ProcModel ProcSpec MachProcModel.

(** Arguments as in ProcSpec.v; without overflow checks a size above half of
    the address space is excluded (C31: [2 * len] wraps). *)
Definition mcall_ok (t : target) (c : pcall) : Prop :=
  pcall_ok t c /\
  match c with
  | PRing hint _ | PInf hint _ => t_checks t = true \/ hint <= 2 ^ (t_bits t - 1) - t_alloc t
  | _ => True
  end.

Inductive mreached (t : target) : mproc -> Prop :=
| mr_start w ports : wf w -> mreached t (mfresh w ports)
| mr_step s c : mreached t s -> mcall_ok t c -> mreached t (snd (mstep t c s)).

(** The call leaves no page behind: a deallocation it has to make (in a drop,
    or after a ring could not be completed) is not refused, and it is not the
    drop of a map of length 0 (C14). *)
Definition mtidy (t : target) (c : pcall) (s : mproc) : Prop :=
  let '(x, s') := mstep t c s in
  match c with
  | PMap (CDrop k) => (forall l, a_live (pc_a (mp_p s)) k = Some l -> 0 < m_len (l_map l)) /\ ~ refused_last (pc_w (mp_p s)) (pc_w (mp_p s'))
  | PRing _ _ | PInf _ _ => forall e, x = ANew (Err e) -> e_op e <> RingAllocate -> ~ refused_last (pc_w (mp_p s)) (pc_w (mp_p s'))
  | PDrop _ => ~ refused_last (pc_w (mp_p s)) (pc_w (mp_p s'))
  | _ => True
  end.
Inductive mtidily (t : target) (w : world) : mproc -> Prop :=
| mt_start ports : wf w -> mtidily t w (mfresh w ports)
| mt_step s c : mtidily t w s -> mcall_ok t c -> mtidy t c s -> mtidily t w (snd (mstep t c s)).

(** The calls of a history that leave a port right behind: every ring made,
    and every attempt that failed in its last call. *)
Definition leaks_port (x : presult) : bool :=
  match x with
  | ANew (Ret _) => true
  | ANew (Err e) => match e_op e with RingSecondary => true | _ => false end
  | _ => false
  end.
