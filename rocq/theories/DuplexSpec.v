(** What a user of a wrapped socket observes: the calls of each direction with
    their results, and the buffered reader and writer inside the object. *)
From Verif Require Import Base ErrorModel RingSpec RingModel BufSpec BufModel DuplexModel.

(** The calls made of one direction, in order, and their results. *)
Fixpoint reads_of (os : list dxop) (xs : list (bytes * out io_error unit)) : list (brop * (bytes * out io_error unit)) :=
  match os, xs with
  | DRead o :: os, x :: xs => (o, x) :: reads_of os xs
  | DWrite _ :: os, _ :: xs => reads_of os xs
  | _, _ => []
  end.
Fixpoint writes_of (os : list dxop) (xs : list (bytes * out io_error unit)) : list (bwop * (bytes * out io_error unit)) :=
  match os, xs with
  | DWrite o :: os, x :: xs => (o, x) :: writes_of os xs
  | DRead _ :: os, _ :: xs => writes_of os xs
  | _, _ => []
  end.
(** The same calls made on one direction alone, by a model of one call: the
    bytes each moved and how it ended.  A call that does not return ends it. *)
Fixpoint trace {V O : Type} (step : V -> O -> V * bytes * out io_error unit) (v : V) (os : list O) : V * list (O * (bytes * out io_error unit)) :=
  match os with
  | [] => (v, [])
  | o :: os' =>
    let '(v1, d, r) := step v o in
    match r with
    | Fault | Blocked => (v1, [(o, (d, r))])
    | _ => let '(v2, xs) := trace step v1 os' in (v2, (o, (d, r)) :: xs)
    end
  end.
(** The bytes all of them moved. *)
Definition moved_by {A} (l : list (A * (bytes * out io_error unit))) : bytes := concat (map (fun c => fst (snd c)) l).
Definition results_of {A} (l : list (A * (bytes * out io_error unit))) : list (out io_error unit) := map (fun c => snd (snd c)) l.

Definition dxop_ok (t : target) (o : dxop) : Prop := match o with DRead o => brop_ok t o | DWrite _ => True end.

(** A socket's own calls, by direction: [read] and [read_exact] of a source,
    [write], [write_all] and [flush] of a sink, with nothing in between. *)
Definition raw_read (s : rsource) (o : brop) : rsource * bytes * out io_error unit :=
  match o with
  | BRead n => let '(s', d, r) := src_read n s in (s', match r with Ret c => ztake c d | _ => [] end, obind r (fun _ => Ret tt))
  | BExact n => std_read_exact src_read (Z.to_nat n + length (rs_script s) + 1) s n []
  | _ => (s, [], Ret tt)
  end.
Definition raw_write (s : wsink) (o : bwop) : wsink * bytes * out io_error unit :=
  match o with
  | WWrite buf => let '(s', r) := sink_write buf s in (s', match r with Ret n => ztake n buf | _ => [] end, obind r (fun _ => Ret tt))
  | WWriteAll buf => std_write_all sink_write (length buf + length (ws_script s) + 1) s buf []
  | WFlush => let '(s', r) := sink_flush s in (s', [], r)
  end.

(** ** The parts of a wrapped socket *)
Definition as_reader (r : ring) (k : sock) (lowat : Z) : bufreader := {| br_ring := r; br_src := sk_in k; br_lowat := lowat |}.
Definition as_writer (r : ring) (k : sock) (p : bool) : bufwriter := {| bw_ring := r; bw_sink := sk_out k; bw_panicked := p |}.

(** [BufReader<Sock>] and [BufWriter<Sock>] *)
Definition rd_reader (x : gread sock) : bufreader := as_reader (gr_ring x) (gr_in x) (gr_lowat x).
Definition wr_writer (x : gwrite sock) : bufwriter := as_writer (gw_ring x) (gw_in x) (gw_panicked x).
(** [BufReader<BufWriter<Sock>>] *)
Definition rw_reader (x : gread (gwrite sock)) : bufreader := as_reader (gr_ring x) (gw_in (gr_in x)) (gr_lowat x).
Definition rw_writer (x : gread (gwrite sock)) : bufwriter := wr_writer (gr_in x).
(** [BufWriter<BufReader<Sock>>] *)
Definition wrd_reader (x : gwrite (gread sock)) : bufreader := rd_reader (gw_in x).
Definition wrd_writer (x : gwrite (gread sock)) : bufwriter := as_writer (gw_ring x) (gr_in (gw_in x)) (gw_panicked x).

(** ** A peer: a new socket wrapped in both, in either order *)
Record ends := { e_src : bytes; e_script : list ranswer; e_wscript : list wanswer;   (* the socket: what arrives, how it answers *)
                 e_capr : Z; e_memr : Z -> byte; e_capw : Z; e_memw : Z -> byte }.   (* the two rings, new *)
Definition ends_sock (e : ends) : sock :=
  {| sk_in := {| rs_src := e_src e; rs_script := e_script e; rs_asked := [] |};
     sk_out := {| ws_log := []; ws_script := e_wscript e; ws_calls := [] |} |}.
Definition rw_new (e : ends) : gread (gwrite sock) :=
  gr_new (gw_from_parts (ends_sock e) (ring_make (e_capw e) (e_memw e))) (e_capr e) (e_memr e).
Definition wrd_new (e : ends) : gwrite (gread sock) :=
  gw_from_parts (gr_new (ends_sock e) (e_capr e) (e_memr e)) (ring_make (e_capw e) (e_memw e)).
(** The calls [os] had the results [xs] and left this reader and writer. *)
Inductive peer_ran (t : target) (e : ends) (os : list dxop) (xs : list (bytes * out io_error unit)) : bufreader -> bufwriter -> Prop :=
| ran_rw x : dx_run (rw_sock t) (rw_new e) os = (x, xs) -> peer_ran t e os xs (rw_reader x) (rw_writer x)
| ran_wrd x : dx_run (wr_rd_sock t) (wrd_new e) os = (x, xs) -> peer_ran t e os xs (wrd_reader x) (wrd_writer x).
(** Rings of any capacity; peers honouring the contracts of [Read] and
    [Write]; on a 32-bit target, or for 2^64 bytes and more, [pos_ok] asks for
    capacities whose positions are exact. *)
Definition ends_ok (t : target) (e : ends) : Prop :=
  0 < e_capr e /\ 2 * e_capr e < 2 ^ t_bits t /\ pos_ok t (e_capr e) (zlen (e_src e)) /\ Forall honest (e_script e) /\
  0 < e_capw e /\ 2 * e_capw e < 2 ^ t_bits t /\ Forall whonest (e_wscript e).
Definition all_ok {A} (l : list (A * (bytes * out io_error unit))) : Prop := Forall (fun c => snd (snd c) = Ret tt) l.

(** An inner reader that does not report an end of input while bytes remain. *)
Definition lasting (a : ranswer) : Prop := match a with Give k => 0 < k | _ => True end.
