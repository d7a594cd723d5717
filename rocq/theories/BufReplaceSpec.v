(** Several inner objects, one after the other, behind one buffer. *)
From Coq Require Import Permutation.
From Verif Require Import Base ErrorModel BufSpec BufModel BufDirectModel BufDirectSpec BufReplaceModel.

(** Of the pieces of all sessions, those of the calls on the buffer. *)
Fixpoint through {S O} (direct : O -> bool) (phs : list (S * list O)) (pieces : list (list bytes)) : bytes :=
  match phs, pieces with
  | (_, os) :: phs, xs :: pieces => concat (pick (fun o => negb (direct o)) os xs) ++ through direct phs pieces
  | _, _ => []
  end.

(** [R ph x p] for each session [ph] that took place, with its outcome [x] and
    its pieces [p]. *)
Fixpoint every {A B C} (R : A -> B -> C -> Prop) (phs : list A) (xs : list B) (ps : list C) : Prop :=
  match phs, xs, ps with
  | ph :: phs, x :: xs, p :: ps => R ph x p /\ every R phs xs ps
  | _, [], [] => True
  | _, _, _ => False
  end.
Definition outputs {S} (xs : list (list bytes * list (out io_error unit) * S)) : list (list bytes) := map (fun x => fst (fst x)) xs.
Definition ends {S} (xs : list (list bytes * list (out io_error unit) * S)) : list (out io_error unit) := flat_map (fun x => snd (fst x)) xs.

(** The source of a session was taken in pieces, one by each call in turn; a
    direct call hands out its piece; the source left behind has the rest. *)
Definition session_r (ph : rsource * list rcall) (x : list bytes * list (out io_error unit) * rsource) (segs : list bytes) : Prop :=
  length segs = length (fst (fst x)) /\ rs_src (fst ph) = concat segs ++ rs_src (snd x) /\
  pick direct_r (snd ph) segs = pick direct_r (snd ph) (fst (fst x)).
(** The pieces taken by calls on the buffer, from all sources in turn, come out
    of the buffer in this order; [buffered] is still in it. *)
Definition taken_over (phs : list (rsource * list rcall)) (xs : list (list bytes * list (out io_error unit) * rsource)) (buffered : bytes) : Prop :=
  exists segss, every session_r phs xs segss /\ through direct_r phs segss = through direct_r phs (outputs xs) ++ buffered.

(** The sink of a session was given pieces, one by each call in turn, a direct
    call exactly those bytes it reports. *)
Definition session_w (ph : wsink * list wcall) (x : list bytes * list (out io_error unit) * wsink) (segs : list bytes) : Prop :=
  length segs = length (fst (fst x)) /\ accepted (snd x) = accepted (fst ph) ++ concat segs /\
  pick direct_w (snd ph) segs = pick direct_w (snd ph) (fst (fst x)).
(** The pieces given by calls on the buffer to all sinks in turn, and what is
    [buffered] still, are the bytes reported by these calls; in order if
    [order]. *)
Definition given_over (phs : list (wsink * list wcall)) (xs : list (list bytes * list (out io_error unit) * wsink)) (buffered : bytes) (order : Prop) : Prop :=
  exists segss, every session_w phs xs segss /\
    Permutation (through direct_w phs (outputs xs)) (through direct_w phs segss ++ buffered) /\
    (order -> through direct_w phs (outputs xs) = through direct_w phs segss ++ buffered).

Fixpoint no_exact_fits (t : target) (b : bufwriter) (phs : list (wsink * list wcall)) : Prop :=
  match phs with
  | [] => True
  | (s, os) :: rest => no_exact_fit t (bw_with_sink b s) os /\ no_exact_fits t (fst (fst (dw_run t (bw_with_sink b s) os))) rest
  end.

(** All that the sources have, respectively all that is written. *)
Definition all_len (phs : list (rsource * list rcall)) : Z := fold_right (fun ph n => zlen (rs_src (fst ph)) + n) 0 phs.
Definition all_weight (phs : list (wsink * list wcall)) : Z := fold_right (fun ph n => wcalls_weight (snd ph) + n) 0 phs.
