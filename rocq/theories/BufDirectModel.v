(** Using the inner object of a [BufReader] or [BufWriter] directly
    (src/io/buffer.rs:79-87, 102-135, 248-256, 379-412: [get_ref], [get_mut],
    [Deref], [DerefMut], [AsRef], [AsMut]) in between the calls on the wrapper.

    A direct call acts on the inner object only.  Modelled: [read] on an inner
    reader, [write] and [flush] on an inner writer.  Replacing the inner object
    through [&mut] is in BufReplaceModel.v. *)
From Verif Require Import Base ErrorModel BufSpec BufModel.

Inductive rcall := ROp (o : brop) | RInner (n : Z).
Inductive wcall := WOp (o : bwop) | WInner (buf : bytes) | WInnerFlush.

Section Direct.
  Variable t : target.

  (** The new state, the bytes the caller got, and how the call ended. *)
  Definition dr_step (b : bufreader) (o : rcall) : bufreader * bytes * out io_error unit :=
    match o with
    | ROp o => br_step t b o
    | RInner n =>
      let '(s, d, r) := src_read n (br_src b) in
      (br_with_src b s, match r with Ret k => ztake k d | _ => [] end, obind r (fun _ => Ret tt))
    end.
  (** As [br_run], keeping the answers apart. *)
  Fixpoint dr_run (b : bufreader) (os : list rcall) : bufreader * list bytes * list (out io_error unit) :=
    match os with
    | [] => (b, [], [])
    | o :: os' =>
      let '(b1, d, r) := dr_step b o in
      match r with
      | Fault | Blocked => (b1, [d], [r])
      | _ => let '(b2, ds, rs) := dr_run b1 os' in (b2, d :: ds, r :: rs)
      end
    end.

  (** The new state, the bytes the caller was told are written, and how the
      call ended. *)
  Definition dw_step (b : bufwriter) (o : wcall) : bufwriter * bytes * out io_error unit :=
    let with_sink s := {| bw_ring := bw_ring b; bw_sink := s; bw_panicked := bw_panicked b |} in
    match o with
    | WOp o => bw_step t b o
    | WInner buf =>
      let '(s, r) := sink_write buf (bw_sink b) in
      (with_sink s, match r with Ret n => ztake n buf | _ => [] end, obind r (fun _ => Ret tt))
    | WInnerFlush => let '(s, r) := sink_flush (bw_sink b) in (with_sink s, [], r)
    end.
  Fixpoint dw_run (b : bufwriter) (os : list wcall) : bufwriter * list bytes * list (out io_error unit) :=
    match os with
    | [] => (b, [], [])
    | o :: os' =>
      let '(b1, d, r) := dw_step b o in
      match r with
      | Fault | Blocked => (b1, [d], [r])
      | _ => let '(b2, ds, rs) := dw_run b1 os' in (b2, d :: ds, r :: rs)
      end
    end.
End Direct.
