(** What the theorems about programs with maps and rings speak about. *)
From Verif Require Import Base ErrorModel RingSpec OsModel OthersModel MapModel MapSpec ApiModel ApiSpec RingMapModel RingMapSpec ProcModel.

(** Arguments are values of their Rust types; file names are not those of
    POSIX shared memory. *)
Definition pcall_ok (t : target) (c : pcall) : Prop :=
  match c with
  | PMap c => call_ok t c /\ named_ok c
  | PRing hint _ | PInf hint _ => is_usize t hint
  | PCall _ o => rop_ok t o
  | PICall _ o => irop_args t o
  | PDrop _ => True
  end.

(** States of programs: from a well-formed world in which nothing is held. *)
Inductive preached (t : target) (plat : platform) : proc -> Prop :=
| pr_start w : wf w -> preached t plat (fresh w)
| pr_step p c : preached t plat p -> pcall_ok t c -> preached t plat (snd (pstep t plat c p)).

(** The calls made on ring [k] until it is dropped, and their answers. *)
Fixpoint calls_on (k : Z) (h : list pcall) : list rop :=
  match h with
  | [] => []
  | PCall k' o :: h => if k' =? k then o :: calls_on k h else calls_on k h
  | PDrop k' :: h => if k' =? k then [] else calls_on k h
  | _ :: h => calls_on k h
  end.
Fixpoint icalls_on (k : Z) (h : list pcall) : list irop :=
  match h with
  | [] => []
  | PICall k' o :: h => if k' =? k then o :: icalls_on k h else icalls_on k h
  | PDrop k' :: h => if k' =? k then [] else icalls_on k h
  | _ :: h => icalls_on k h
  end.
Definition ring_answer (x : presult) : list (out io_error rout) := match x with ARing r => [r] | _ => [] end.
Fixpoint answers_on (k : Z) (h : list pcall) (xs : list presult) : list (out io_error rout) :=
  match h, xs with
  | PCall k' _ :: h, x :: xs => if k' =? k then ring_answer x ++ answers_on k h xs else answers_on k h xs
  | PICall k' _ :: h, x :: xs => if k' =? k then ring_answer x ++ answers_on k h xs else answers_on k h xs
  | PDrop k' :: h, _ :: xs => if k' =? k then [] else answers_on k h xs
  | _ :: h, _ :: xs => answers_on k h xs
  | _, _ => []
  end.

(** The answers a queue gives.  A call that must panic changes nothing, and
    the queue can be used after it. *)
Inductive q_answers : queue -> list rop -> list (out io_error rout) -> Prop :=
| qa_nil q : q_answers q [] []
| qa_ok q o os q' x xs : ~ q_panics q o -> q_step q o q' x -> q_answers q' os xs -> q_answers q (o :: os) (Ret x :: xs)
| qa_panic q o os xs : q_panics q o -> q_answers q os xs -> q_answers q (o :: os) (Panic :: xs).
Inductive lq_answers : lqueue -> list irop -> list (out io_error rout) -> Prop :=
| la_nil q : lq_answers q [] []
| la_ok q o os q' x xs : ~ lq_panics q o -> lq_step q o q' x -> lq_answers q' os xs -> lq_answers q (o :: os) (Ret x :: xs)
| la_panic q o os xs : lq_panics q o -> lq_answers q os xs -> lq_answers q (o :: os) (Panic :: xs).
Definition zeros (n : Z) : bytes := repeat 0 (Z.to_nat n).

(** The addresses of a ring: its bytes, twice. *)
Definition ring_addr (h : held) (a : Z) : Prop := ra_ptr (h_alloc h) <= a < ra_ptr (h_alloc h) + 2 * ra_len (h_alloc h).
Definition map_addr (l : live) (a : Z) : Prop := m_ptr (l_map l) <= a < m_ptr (l_map l) + m_len (l_map l).

(** The ring a call is made on. *)
Definition ring_subject (c : pcall) : option Z :=
  match c with PCall k _ | PICall k _ | PDrop k => Some k | _ => None end.

(** ** What is mapped *)
Definition ring_page (t : target) (h : held) (p : Z) : Prop := ring_addr h (t_page t * p).
Definition holds_page (t : target) (p : proc) (pg : Z) : Prop :=
  (exists k h, pc_ring p k = Some h /\ ring_page t h pg) \/
  (exists k l, a_live (pc_a p) k = Some l /\ own_page t (l_map l) pg).

(** The call leaves nothing behind: where it has to give pages back (a drop;
    a ring whose two halves could not be mapped) the kernel does not refuse,
    and it is not the drop of a map of length 0 (C14). *)
Definition tidy (t : target) (plat : platform) (c : pcall) (p : proc) : Prop :=
  let '(x, p') := pstep t plat c p in
  match c with
  | PMap (CDrop k) => (forall l, a_live (pc_a p) k = Some l -> 0 < m_len (l_map l)) /\ ~ refused_last (pc_w p) (pc_w p')
  | PRing _ _ | PInf _ _ => forall e, x = ANew (Err e) -> e_op e = RingPrimary \/ e_op e = RingSecondary ->
      ~ refused_last (pc_w p) (pc_w p')
  | PDrop _ => ~ refused_last (pc_w p) (pc_w p')
  | _ => True
  end.
Inductive tidily (t : target) (plat : platform) (w : world) : proc -> Prop :=
| td_start : wf w -> tidily t plat w (fresh w)
| td_step p c : tidily t plat w p -> pcall_ok t c -> tidy t plat c p -> tidily t plat w (snd (pstep t plat c p)).
