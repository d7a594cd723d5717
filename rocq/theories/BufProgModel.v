(** The buffered reader and writer as programs over a ring that lives in a
    process (src/io/buffer.rs).

    BufModel.v runs the functions of buffer.rs against a ring that is a value.
    Here the same functions are written once more, as the sequence of calls
    they make on their ring, so that they can be executed by a process whose
    rings are memory of the kernel, with other calls of the same process
    between any two of them: the inner reader or writer may itself use maps
    and rings, and other threads may run.

    A [code] is a finite tree: it ends with a value, asks the ring for
    [read_len] or [write_len], or makes a call on the ring and continues with
    the answer.  A call of the ring that does not return normally ends the
    whole code: no function of buffer.rs catches a panic. *)
From Verif Require Import Base ErrorModel RingSpec RingModel BufSpec BufModel.

Inductive code (A : Type) : Type :=
| Pure (a : A)
| Len (w : bool) (k : Z -> code A)
| Do (o : rop) (k : rout -> code A).
Arguments Pure {A} a.
Arguments Len {A} w k.
Arguments Do {A} o k.

Fixpoint cbind {A B} (c : code A) (f : A -> code B) : code B :=
  match c with
  | Pure a => f a
  | Len w k => Len w (fun n => cbind (k n) f)
  | Do o k => Do o (fun x => cbind (k x) f)
  end.

(** The slice a [read_slice] call answers with. *)
Definition slice_of (x : rout) : bytes := match x with OBytes d => d | _ => [] end.
Definition count_of (x : rout) : Z := match x with OCount n => n | _ => 0 end.

Section Reader.
  Variable t : target.
  (** The capacity of the ring ([write_capacity], src/io/ring.rs:125-127, is the
      length fixed when the ring was made). *)
  Variable cap : Z.

  (** src/io/buffer.rs:181-187; [lw] is the field [lowat], [s] the field
      [inner].  [write_slice(usize::MAX)] is as long as [write_len]; the inner
      reader is called with it ([src_read], BufSpec/BufModel), and what it
      stores there is stored in the ring whatever the call returns ([RStore] at
      offset 0 of that slice); on [Ok(n)], [feed(n)]; then [read_slice]. *)
  Definition c_fill (lw : Z) (s : rsource) : code (rsource * out io_error bytes) :=
    let finish s := Do (RPeek (umax t)) (fun x => Pure (s, Ret (slice_of x))) in
    Len false (fun rl =>
    if rl <=? lw then
      Len true (fun wl =>
      let '(s', d, res) := src_read (Z.min wl (umax t)) s in
      Do (RStore (umax t) 0 d) (fun _ =>
      match res with
      | Ret n => Do (RFeed n) (fun _ => finish s')
      | Err e => Pure (s', Err e)
      | Panic => Pure (s', Panic)
      | Fault => Pure (s', Fault)
      | Blocked => Pure (s', Blocked)
      end))
    else finish s).

  (** src/io/buffer.rs:138-150 *)
  Definition c_read (lw : Z) (s : rsource) (n : Z) : code (rsource * bytes * out io_error Z) :=
    Len false (fun rl =>
    if (rl =? 0) && (cap <=? n) then Pure (src_read n s)
    else
      cbind (c_fill lw s) (fun '(s', r) =>
      match r with
      | Ret avail => let d := ztake n avail in Do (RConsume (zlen d)) (fun _ => Pure (s', d, Ret (zlen d)))
      | Err e => Pure (s', [], Err e)
      | Panic => Pure (s', [], Panic)
      | Fault => Pure (s', [], Fault)
      | Blocked => Pure (s', [], Blocked)
      end)).

  (** std's [read_until] over fill_buf/consume, as in BufModel.v *)
  Fixpoint c_until_loop (fuel : nat) (lw : Z) (s : rsource) (c : byte) (acc : bytes)
      : code (rsource * bytes * out io_error unit) :=
    match fuel with
    | O => Pure (s, acc, Blocked)
    | S f =>
      cbind (c_fill lw s) (fun '(s', r) =>
      match r with
      | Ret avail =>
        match find_byte c avail with
        | Some k => Do (RConsume (k + 1)) (fun _ => Pure (s', acc ++ ztake (k + 1) avail, Ret tt))
        | None =>
          Do (RConsume (zlen avail)) (fun _ =>
          if zlen avail =? 0 then Pure (s', acc, Ret tt)
          else c_until_loop f lw s' c (acc ++ avail))
        end
      | Err e => match io_kind_of e with
                 | Interrupted => c_until_loop f lw s' c acc
                 | _ => Pure (s', acc, Err e)
                 end
      | Panic => Pure (s', acc, Panic)
      | Fault => Pure (s', acc, Fault)
      | Blocked => Pure (s', acc, Blocked)
      end)
    end.

  (** std's [read_exact] over [read], as in BufModel.v *)
  Fixpoint c_exact_loop (fuel : nat) (lw : Z) (s : rsource) (n : Z) (acc : bytes)
      : code (rsource * bytes * out io_error unit) :=
    if n <=? 0 then Pure (s, acc, Ret tt) else
    match fuel with
    | O => Pure (s, acc, Blocked)
    | S f =>
      cbind (c_read lw s n) (fun '(s', d, r) =>
      match r with
      | Ret k =>
        if k =? 0 then Pure (s', acc, Err (IoSimple UnexpectedEof))
        else if n <? k then Pure (s', acc, Panic)
        else c_exact_loop f lw s' (n - k) (acc ++ d)
      | Err e => match io_kind_of e with
                 | Interrupted => c_exact_loop f lw s' n acc
                 | _ => Pure (s', acc, Err e)
                 end
      | Panic => Pure (s', acc, Panic)
      | Fault => Pure (s', acc, Fault)
      | Blocked => Pure (s', acc, Blocked)
      end)
    end.

  (** One call of a history (src/io/buffer.rs:137-191 and std's provided
      methods): the new [lowat] and [inner], the bytes that left, how the call
      ended.  [consume(n)] (189-191) returns nothing; the bytes it takes off
      are what the caller could look at before it, hence the [RPeek], which
      changes nothing. *)
  Definition c_rstep (lw : Z) (s : rsource) (o : brop) : code (Z * rsource * bytes * out io_error unit) :=
    match o with
    | BRead n =>
      cbind (c_read lw s n) (fun '(s', d, r) =>
      Pure (lw, s', match r with Ret k => ztake k d | _ => [] end, obind r (fun _ => Ret tt)))
    | BFill => cbind (c_fill lw s) (fun '(s', r) => Pure (lw, s', [], obind r (fun _ => Ret tt)))
    | BConsume n =>
      Do (RPeek (umax t)) (fun x =>
      Do (RConsume n) (fun _ => Pure (lw, s, ztake n (slice_of x), Ret tt)))
    | BLowat n => Pure (n, s, [], Ret tt)
    | BUntil c =>
      cbind (c_until_loop (2 * length (rs_script s) + 3) lw s c []) (fun '(s', d, r) => Pure (lw, s', d, r))
    | BExact n =>
      cbind (c_exact_loop (Z.to_nat n + length (rs_script s) + 1) lw s n []) (fun '(s', d, r) => Pure (lw, s', d, r))
    end.
  Fixpoint c_rrun (lw : Z) (s : rsource) (os : list brop) : code (Z * rsource * bytes * list (out io_error unit)) :=
    match os with
    | [] => Pure (lw, s, [], [])
    | o :: os' =>
      cbind (c_rstep lw s o) (fun '(lw1, s1, d, r) =>
      match r with
      | Fault | Blocked => Pure (lw1, s1, d, [r])
      | _ => cbind (c_rrun lw1 s1 os') (fun '(lw2, s2, ds, rs) => Pure (lw2, s2, d ++ ds, r :: rs))
      end)
    end.
End Reader.

Section Writer.
  Variable t : target.

  (** src/io/buffer.rs:362-364, 428-430: the inner write and the flag *)
  Definition c_inner_write (s : wsink) (buf : bytes) : wsink * bool * out io_error Z :=
    let '(s', r) := sink_write buf s in
    (s', match r with Ret _ | Err _ => false | _ => true end, r).

  (** src/io/buffer.rs:356-375; [is_empty] is [read_len == 0] *)
  Fixpoint c_flush_loop (fuel : nat) (s : wsink) (fl : bool) : code (wsink * bool * out io_error unit) :=
    match fuel with
    | O => Pure (s, fl, Blocked)
    | S f =>
      Len false (fun rl =>
      if rl =? 0 then Pure (s, fl, Ret tt) else
      Do (RPeek (umax t)) (fun x =>
      let '(s', fl', r) := c_inner_write s (slice_of x) in
      match r with
      | Ret n =>
        if n =? 0 then Pure (s', fl', Err (IoSimple WriteZero))
        else Do (RConsume n) (fun _ => c_flush_loop f s' fl')
      | Err e => match io_kind_of e with
                 | Interrupted => c_flush_loop f s' fl'
                 | _ => Pure (s', fl', Err e)
                 end
      | Panic => Pure (s', fl', Panic)
      | Fault => Pure (s', fl', Fault)
      | Blocked => Pure (s', fl', Blocked)
      end))
    end.
  Definition c_flush_buf (s : wsink) (fl : bool) := c_flush_loop (S (length (ws_script s))) s fl.

  (** src/io/buffer.rs:423-435 *)
  Definition c_write (s : wsink) (fl : bool) (buf : bytes) : code (wsink * bool * out io_error Z) :=
    Len true (fun wl =>
    cbind (if wl <? zlen buf then c_flush_buf s fl else Pure (s, fl, Ret tt)) (fun '(s', fl', r) =>
    match r with
    | Ret _ =>
      Len true (fun wl' =>
      if wl' <=? zlen buf then Pure (c_inner_write s' buf)
      else Do (RWrite buf) (fun x => Pure (s', fl', Ret (count_of x))))
    | Err e => Pure (s', fl', Err e)
    | Panic => Pure (s', fl', Panic)
    | Fault => Pure (s', fl', Fault)
    | Blocked => Pure (s', fl', Blocked)
    end)).

  (** src/io/buffer.rs:437-439 *)
  Definition c_flush (s : wsink) (fl : bool) : code (wsink * bool * out io_error unit) :=
    cbind (c_flush_buf s fl) (fun '(s', fl', r) =>
    match r with
    | Ret _ => let '(s2, r2) := sink_flush s' in Pure (s2, fl', r2)
    | _ => Pure (s', fl', r)
    end).

  (** src/io/buffer.rs:414-420 *)
  Definition c_drop (s : wsink) (fl : bool) : code (wsink * out io_error unit) :=
    if fl then Pure (s, Ret tt)
    else cbind (c_flush_buf s fl) (fun '(s', _, r) => Pure (s', match r with Err _ => Ret tt | r => r end)).

  (** std's [write_all] over [write], as in BufModel.v *)
  Fixpoint c_write_all_loop (fuel : nat) (s : wsink) (fl : bool) (buf told : bytes)
      : code (wsink * bool * bytes * out io_error unit) :=
    match buf with
    | [] => Pure (s, fl, told, Ret tt)
    | _ =>
      match fuel with
      | O => Pure (s, fl, told, Blocked)
      | S f =>
        cbind (c_write s fl buf) (fun '(s', fl', r) =>
        match r with
        | Ret n =>
          if n =? 0 then Pure (s', fl', told, Err (IoSimple WriteZero))
          else if zlen buf <? n then Pure (s', fl', told ++ buf, Panic)
          else c_write_all_loop f s' fl' (zdrop n buf) (told ++ ztake n buf)
        | Err e => match io_kind_of e with
                   | Interrupted => c_write_all_loop f s' fl' buf told
                   | _ => Pure (s', fl', told, Err e)
                   end
        | Panic => Pure (s', fl', told, Panic)
        | Fault => Pure (s', fl', told, Fault)
        | Blocked => Pure (s', fl', told, Blocked)
        end)
      end
    end.

  Definition c_wstep (s : wsink) (fl : bool) (o : bwop) : code (wsink * bool * bytes * out io_error unit) :=
    match o with
    | WWrite buf =>
      cbind (c_write s fl buf) (fun '(s', fl', r) =>
      Pure (s', fl', match r with Ret n => ztake n buf | _ => [] end, obind r (fun _ => Ret tt)))
    | WWriteAll buf => c_write_all_loop (length buf + length (ws_script s) + 1) s fl buf []
    | WFlush => cbind (c_flush s fl) (fun '(s', fl', r) => Pure (s', fl', [], r))
    end.
  Fixpoint c_wrun (s : wsink) (fl : bool) (os : list bwop) : code (wsink * bool * bytes * list (out io_error unit)) :=
    match os with
    | [] => Pure (s, fl, [], [])
    | o :: os' =>
      cbind (c_wstep s fl o) (fun '(s1, fl1, d, r) =>
      match r with
      | Fault | Blocked => Pure (s1, fl1, d, [r])
      | _ => cbind (c_wrun s1 fl1 os') (fun '(s2, fl2, ds, rs) => Pure (s2, fl2, d ++ ds, r :: rs))
      end)
    end.
  (** A history and then the drop. *)
  Definition c_wlife (s : wsink) (fl : bool) (os : list bwop) : code (wsink * bytes * list (out io_error unit)) :=
    cbind (c_wrun s fl os) (fun '(s', fl', ds, rs) =>
    cbind (c_drop s' fl') (fun '(s2, r) => Pure (s2, ds, rs ++ [r]))).
End Writer.

(** ** Execution in a process *)
Section Exec.
  (** States, the calls that the rest of the program makes (and which of them
      it may make), the ring's own calls and its two length queries. *)
  Variables P C : Type.
  Variable other : C -> Prop.
  Variable step : C -> P -> P.
  Variable own : rop -> P -> option (out io_error rout) * P.
  Variable len : bool -> P -> option (out io_error Z).

  (** [exec p c r p']: started at [p], the code can reach [p'] with result [r];
      [None] when a call of the ring did not return normally (or there was no
      ring).  Anything allowed by [other] may happen before every call on the
      ring, any number of times, and after the last. *)
  Inductive exec {A} : P -> code A -> option A -> P -> Prop :=
  | x_other p e c r p' : other e -> exec (step e p) c r p' -> exec p c r p'
  | x_pure p a : exec p (Pure a) (Some a) p
  | x_len p w k n r p' : len w p = Some (Ret n) -> exec p (k n) r p' -> exec p (Len w k) r p'
  | x_len_bad p w k : (forall n, len w p <> Some (Ret n)) -> exec p (Len w k) None p
  | x_do p o k x p1 r p' : own o p = (Some (Ret x), p1) -> exec p1 (k x) r p' -> exec p (Do o k) r p'
  | x_do_bad p o k y p1 : own o p = (y, p1) -> (forall x, y <> Some (Ret x)) -> exec p (Do o k) None p1.
End Exec.

(** A schedule: what the rest of the program does before each step of the
    code.  Every schedule is an execution ([runs_exec], BufProgProofs.v). *)
Section Runs.
  Variables P C : Type.
  Variable step : C -> P -> P.
  Variable own : rop -> P -> option (out io_error rout) * P.
  Variable len : bool -> P -> option (out io_error Z).
  Fixpoint runs {A} (c : code A) (es : list (list C)) (p : P) : option A * P :=
    let p := fold_left (fun p e => step e p) (hd [] es) p in
    match c with
    | Pure a => (Some a, p)
    | Len w k => match len w p with Some (Ret n) => runs (k n) (tl es) p | _ => (None, p) end
    | Do o k => match own o p with (Some (Ret x), p1) => runs (k x) (tl es) p1 | (_, p1) => (None, p1) end
    end.
End Runs.
