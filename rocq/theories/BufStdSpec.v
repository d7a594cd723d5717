(** What std's methods should do with a stream. *)
From Coq Require Import Permutation.
From Verif Require Import Base ErrorModel RingSpec BufSpec StdSpec.

(** A source that reports the end of input only at its end. *)
Definition steady (a : ranswer) : Prop := match a with Give k => 0 < k | _ => True end.

(** [q] is the line [p] without a carriage return at its end. *)
Definition chomped (p q : bytes) : Prop := p = q ++ [13] \/ (p = q /\ forall x, p <> x ++ [13]).

(** The lines of a text; what is behind the last newline is a line if it is
    not empty, and is left as it is. *)
Definition lines_of (l : bytes) (ls : list bytes) : Prop :=
  exists ps qs z, l = flat_map (fun p => p ++ [10]) ps ++ z /\ Forall (fun p => ~ In 10 p) (ps ++ [z]) /\
    Forall2 chomped ps qs /\ ls = qs ++ match z with [] => [] | _ => [z] end.

(** What is left in a string by a method that took the bytes [taken] and whose
    calls ended in [r]. *)
Definition in_string (valid : bytes -> bool) (taken : bytes) (r : out io_error unit) (str : bytes) (r' : out io_error unit) : Prop :=
  match r with
  | Ret _ => (valid taken = true /\ str = taken /\ r' = Ret tt) \/
             (valid taken = false /\ str = [] /\ exists e, r' = Err e /\ io_kind_of e = OtherKind (-2))
  | Err e => r' = Err e /\ ((valid taken = true /\ str = taken) \/ (valid taken = false /\ str = []))
  | r => str = [] /\ r' = r
  end.
