(** What is to come out of the programs of BufProgModel.v when nothing is known
    of the inner object: it may report any number of bytes, with any bytes in
    the slice it was given, fail or panic at any call; and when histories are
    so long that the ring's counters reach the end of their range. *)
From Verif Require Import Base ErrorModel RingSpec RingModel BufSpec BufModel BufWeak.

(** [seen]: the answer of the ring to a look at all it holds, at the end.
    Either every ring call returned, and the outcome is that of the object
    alone; or a ring call panicked, which only happens in a build with overflow
    checks and when the object alone panics.  Then too the ring can be used, and holds
    no more than its capacity. *)
Definition reader_outcome_any (t : target) (cap : Z) (src : bytes) (script : list ranswer) (os : list brop)
    (res : option (Z * rsource * bytes * list (out io_error unit))) (seen : option (out io_error rout)) : Prop :=
  exists b ds rs buffered,
    br_run t (br_new {| rs_src := src; rs_script := script; rs_asked := [] |} cap (fun _ => 0)) os = (b, ds, rs) /\
    Forall (fun r => r <> Fault) rs /\ seen = Some (Ret (OBytes buffered)) /\ zlen buffered <= cap /\
    ((res = Some (br_lowat b, br_src b, ds, rs) /\ br_buffer t b = Ret buffered) \/
     (res = None /\ In Panic rs /\ t_checks t = true)).

(** A writer, used and then dropped. *)
Definition writer_outcome_any (t : target) (cap : Z) (script : list wanswer) (os : list bwop)
    (res : option (wsink * bytes * list (out io_error unit))) (seen : option (out io_error rout)) : Prop :=
  exists b ds rs s r held,
    bw_run t (bw_from_parts {| ws_log := []; ws_script := script; ws_calls := [] |} (ring_make cap (fun _ => 0))) os = (b, ds, rs) /\
    bw_drop t b = (s, r) /\
    Forall (fun r => r <> Fault) (rs ++ [r]) /\ seen = Some (Ret (OBytes held)) /\ zlen held <= cap /\
    (res = Some (s, ds, rs ++ [r]) \/ (res = None /\ In Panic (rs ++ [r]) /\ t_checks t = true)).
