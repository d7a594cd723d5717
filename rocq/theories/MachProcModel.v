(** A program that uses maps and rings together on macOS and iOS: any history
    of calls, against any behaviour of the kernel.  Maps are the POSIX code
    (src/os/unix/mod.rs, the calls of ApiModel.v); rings are allocated by
    src/os/unix/mach.rs (MachModel.v) in the memory of the same task; the calls
    on rings are those of ProcModel.v.

    A Mach memory entry (the port left over by an allocation) names memory but
    is used by no other call of the crate. *)
From Verif Require Import Base ErrorModel RingSpec OsModel MapModel ApiModel RingMapModel MachModel MemRingModel ProcModel.

Record mproc := { mp_p : proc; mp_ports : Z -> option mem_entry }.

Section MachProc.
  Variable t : target.

  Definition mp_mach (s : mproc) : mach := {| mc_w := pc_w (mp_p s); mc_ports := mp_ports s |}.

  (** src/io/ring.rs:72-81, 233-242 over mach.rs:79-131 *)
  Definition mach_new (mk : Z -> Z -> held) (hint : Z) (s : mproc) : presult * mproc :=
    let p := mp_p s in
    let '(r, m) := mach_ring_new t hint (mp_mach s) in
    match r with
    | Ret a => (ANew (Ret (pc_cnt p)),
        {| mp_p := {| pc_a := set_w (pc_a p) (mc_w m); pc_ring := put (pc_ring p) (pc_cnt p) (Some (mk (ra_ptr a) (ra_len a)));
                      pc_cnt := pc_cnt p + 1 |};
           mp_ports := mc_ports m |})
    | Err e => (ANew (Err e), {| mp_p := pc_set_w p (mc_w m); mp_ports := mc_ports m |})
    | Panic => (ANew Panic, {| mp_p := pc_set_w p (mc_w m); mp_ports := mc_ports m |})
    | Fault => (ANew Fault, {| mp_p := pc_set_w p (mc_w m); mp_ports := mc_ports m |})
    | Blocked => (ANew Blocked, {| mp_p := pc_set_w p (mc_w m); mp_ports := mc_ports m |})
    end.

  (** The clock in [PRing] and [PInf] is not used: no name is made up on macOS.
      Calls on maps and on existing rings do not depend on the platform of
      [pstep]. *)
  Definition mstep (c : pcall) (s : mproc) : presult * mproc :=
    match c with
    | PRing hint _ => mach_new (fun ptr len => HRing (kring_new ptr len)) hint s
    | PInf hint _ => mach_new (fun ptr len => HInf (kiring_new ptr len)) hint s
    | PDrop k =>
      match pc_ring (mp_p s) k with
      | Some h => let '(r, m) := mach_ring_drop t (h_alloc h) (mp_mach s) in
                  (ADrop r, {| mp_p := pc_put (mp_p s) (mc_w m) k None; mp_ports := mc_ports m |})
      | None => (ANone, s)
      end
    | _ => let '(x, p) := pstep t Anonymous c (mp_p s) in (x, {| mp_p := p; mp_ports := mp_ports s |})
    end.

  Fixpoint mrun (h : list pcall) (s : mproc) : list presult * mproc :=
    match h with
    | [] => ([], s)
    | c :: h =>
      let '(x, s1) := mstep c s in
      let '(xs, s2) := mrun h s1 in (x :: xs, s2)
    end.
End MachProc.

(** Nothing held yet: no map, no ring, and [ports] the rights of the task. *)
Definition mfresh (w : world) (ports : Z -> option mem_entry) : mproc := {| mp_p := fresh w; mp_ports := ports |}.
