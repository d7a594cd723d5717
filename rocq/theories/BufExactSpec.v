(** What is demanded of a buffered reader and writer over histories of any
    length. *)
From Coq Require Import Permutation.
From Verif Require Import Base ErrorModel RingSpec RingModel BufSpec BufModel BufWeak BufClaims.

(** The readers and writers of every history: no bound on the bytes carried,
    no condition on the capacity beyond what [Ring::new] grants. *)
Definition br_history (t : target) (cap : Z) (src : bytes) (script : list ranswer) (os : list brop)
    (b : bufreader) (delivered : bytes) (rs : list (out io_error unit)) : Prop :=
  Forall honest script /\ Forall (brop_ok t) os /\
  exists m, br_run t (br_new (fresh_source src script) cap m) os = (b, delivered, rs).

Definition bw_history (t : target) (cap : Z) (r0 : ring) (script : list wanswer) (os : list bwop)
    (b : bufwriter) (told : bytes) (rs : list (out io_error unit)) : Prop :=
  (exists m os0 xs, Forall (rop_ok t) os0 /\ ring_run t (ring_make cap m) os0 = Ret (r0, xs)) /\
  Forall whonest script /\ bw_run t (bw_from_parts (fresh_sink script) r0) os = (b, told, rs).

(** The same over any inner writer, also one that breaks its contract. *)
Definition bw_every (t : target) (cap : Z) (r0 : ring) (script : list wanswer) (os : list bwop)
    (b : bufwriter) (told : bytes) (rs : list (out io_error unit)) : Prop :=
  (exists m os0 xs, Forall (rop_ok t) os0 /\ ring_run t (ring_make cap m) os0 = Ret (r0, xs)) /\
  Forall (wanswer_ok t) script /\ bw_run t (bw_from_parts (fresh_sink script) r0) os = (b, told, rs).

(** Every byte the source gave is delivered, buffered or still to come, in order. *)
Definition keeps_stream (t : target) (src : bytes) (b : bufreader) (delivered : bytes) : Prop :=
  exists buffered, br_buffer t b = Ret buffered /\ delivered ++ buffered ++ rs_src (br_src b) = src.

(** Every byte reported as written was accepted below or is buffered, once. *)
Definition conserves (t : target) (r0 : ring) (b : bufwriter) (told : bytes) : Prop :=
  exists data0 data, ring_read_slice t r0 (umax t) = Ret data0 /\ bw_buffer t b = Ret data /\
    Permutation (data0 ++ told) (accepted (bw_sink b) ++ data).

(** ... in order. *)
Definition keeps_order (t : target) (r0 : ring) (b : bufwriter) (told : bytes) : Prop :=
  exists data0 data, ring_read_slice t r0 (umax t) = Ret data0 /\ bw_buffer t b = Ret data /\
    data0 ++ told = accepted (bw_sink b) ++ data.

(** A flush hands over buffered bytes front first and drops none. *)
Definition flushes (t : target) (b : bufwriter) : Prop :=
  forall b' r, bw_flush t b = (b', r) ->
  exists data data', bw_buffer t b = Ret data /\ bw_buffer t b' = Ret data' /\
    accepted (bw_sink b') ++ data' = accepted (bw_sink b) ++ data /\ (r = Ret tt -> data' = []).

(** into_inner hands everything over before it gives the writer back. *)
Definition hands_over (t : target) (b : bufwriter) : Prop :=
  exists data, bw_buffer t b = Ret data /\
    match bw_into_inner t b with
    | Inner s => accepted s = accepted (bw_sink b) ++ data
    | Back b' _ => exists data', bw_buffer t b' = Ret data' /\
        accepted (bw_sink b') ++ data' = accepted (bw_sink b) ++ data
    | Unwound s _ => exists rest, accepted s ++ rest = accepted (bw_sink b) ++ data
    end.

(** Dropping hands over a front part of the buffer, everything if the inner
    writer keeps accepting. *)
Definition drops_well (t : target) (b : bufwriter) : Prop :=
  forall s r, last_write_panicked (bw_sink b) = false -> bw_drop t b = (s, r) ->
  exists data p rest, bw_buffer t b = Ret data /\ data = p ++ rest /\
    accepted s = accepted (bw_sink b) ++ p /\
    (Forall willing (ws_script (bw_sink b)) -> r = Blocked \/ rest = []).
