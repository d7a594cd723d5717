(** What the buffered reader and writer talk to, and the calls a user makes
    on them. *)
From Verif Require Import Base ErrorModel.

(** ** The inner reader

    One call [read(dst)] is answered by the next entry of a script; an
    arbitrary reader, however adaptive, produces some such script.  Bytes come
    from [rs_src], the stream it carries.  An exhausted script means that the
    call has not returned. *)
Inductive ranswer :=
| Give (k : Z)                     (* delivers up to k bytes; 0 is end of input *)
| Lie (d : bytes) (k : Z)          (* breaks the contract of Read: stores d, claims k *)
| RFail (d : bytes) (e : io_error) (* fails, after having scribbled d over dst *)
| RBoom (d : bytes).               (* panics, after having scribbled d over dst *)

Record rsource := { rs_src : bytes; rs_script : list ranswer; rs_asked : list Z }.

(** A call with a destination of [n] bytes: what was stored at the front of
    the destination, and the result (a count). *)
Definition src_read (n : Z) (s : rsource) : rsource * bytes * out io_error Z :=
  match rs_script s with
  | [] => (s, [], Blocked)
  | a :: rest =>
    let s' src := {| rs_src := src; rs_script := rest; rs_asked := rs_asked s ++ [n] |} in
    match a with
    | Give k => let d := ztake (Z.min k n) (rs_src s) in (s' (zdrop (zlen d) (rs_src s)), d, Ret (zlen d))
    | Lie d k => (s' (rs_src s), ztake n d, Ret k)
    | RFail d e => (s' (rs_src s), ztake n d, Err e)
    | RBoom d => (s' (rs_src s), ztake n d, Panic)
    end
  end.

(** Readers that honour the contract of [std::io::Read]. *)
Definition honest (a : ranswer) : Prop := match a with Lie _ _ => False | _ => True end.

(** Calls on a buffered reader. *)
Inductive brop :=
| BRead (n : Z)            (* Read::read into n bytes *)
| BFill                    (* BufRead::fill_buf *)
| BConsume (n : Z)         (* BufRead::consume *)
| BLowat (n : Z)           (* set_lowat *)
| BUntil (c : byte)        (* BufRead::read_until *)
| BExact (n : Z).          (* Read::read_exact into n bytes *)

Definition brop_ok (t : target) (o : brop) : Prop :=
  match o with
  | BRead n | BConsume n | BLowat n | BExact n => is_usize t n
  | _ => True
  end.

(** ** The inner writer *)
Inductive wanswer :=
| Take (k : Z)                     (* accepts up to k bytes; flush: Ok *)
| Claim (k : Z)                    (* breaks the contract of Write: accepts all, claims k *)
| WFail (e : io_error)
| WBoom.

(** What the inner writer has seen: byte strings it accepted (reported by
    [Ok]), successful flushes. *)
Inductive wevent := Wrote (d : bytes) | Flushed.
Record wsink := { ws_log : list wevent; ws_script : list wanswer;
                  ws_calls : list (bytes * wanswer) }.  (* the write calls and their answers *)

Definition event_bytes (e : wevent) : bytes := match e with Wrote d => d | Flushed => [] end.
Definition accepted (s : wsink) : bytes := flat_map event_bytes (ws_log s).

(** One [write(buf)]. *)
Definition sink_write (b : bytes) (s : wsink) : wsink * out io_error Z :=
  match ws_script s with
  | [] => (s, Blocked)
  | a :: rest =>
    let s' evs := {| ws_log := ws_log s ++ evs; ws_script := rest; ws_calls := ws_calls s ++ [(b, a)] |} in
    match a with
    | Take k => let d := ztake k b in (s' [Wrote d], Ret (zlen d))
    | Claim k => (s' [Wrote b], Ret k)
    | WFail e => (s' [], Err e)
    | WBoom => (s' [], Panic)
    end
  end.

(** One [flush()]. *)
Definition sink_flush (s : wsink) : wsink * out io_error unit :=
  match ws_script s with
  | [] => (s, Blocked)
  | a :: rest =>
    let s' evs := {| ws_log := ws_log s ++ evs; ws_script := rest; ws_calls := ws_calls s |} in
    match a with
    | Take _ | Claim _ => (s' [Flushed], Ret tt)
    | WFail e => (s' [], Err e)
    | WBoom => (s' [], Panic)
    end
  end.

Definition whonest (a : wanswer) : Prop := match a with Claim _ => False | _ => True end.

(** Calls on a buffered writer. *)
Inductive bwop :=
| WWrite (b : bytes)       (* Write::write *)
| WWriteAll (b : bytes)    (* Write::write_all *)
| WFlush.                  (* Write::flush *)

(** The most recent write call on the inner writer panicked. *)
Definition last_write_panicked (s : wsink) : bool :=
  match rev (ws_calls s) with (_, WBoom) :: _ => true | _ => false end.

(** A reason the inner writer gave to stop with [e]. *)
Definition refused (answers : list wanswer) (e : io_error) : Prop :=
  In (WFail e) answers \/ (e = IoSimple WriteZero /\ exists k, k <= 0 /\ In (Take k) answers).

(** An inner writer that makes progress on every call, apart from interrupts. *)
Definition willing (a : wanswer) : Prop :=
  match a with
  | Take k => 0 < k
  | WFail e => io_kind_of e = Interrupted
  | _ => False
  end.
(** The last answer, and no earlier one, was a reason to stop with [e],
    respectively a panic. *)
Definition stopped (answers : list wanswer) (e : io_error) : Prop := exists before last,
  answers = before ++ [last] /\ Forall willing before /\
  (last = WFail e \/ (e = IoSimple WriteZero /\ exists k, k <= 0 /\ last = Take k)).
Definition boomed (answers : list wanswer) : Prop := exists before, answers = before ++ [WBoom] /\ Forall willing before.

(** How many bytes a call can add to the buffer at most. *)
Definition bwop_weight (o : bwop) : Z :=
  match o with WWrite b | WWriteAll b => zlen b | WFlush => 0 end.
Definition bwops_weight (os : list bwop) : Z := fold_right (fun o s => bwop_weight o + s) 0 os.

(** Answers of an inner reader that a reading loop does not stop at, and how
    such a loop got from the source [s] to [s']: the answers used up, the last
    of which was a reason to stop. *)
Definition flows (a : ranswer) : Prop :=
  match a with Give _ => True | RFail _ e => io_kind_of e = Interrupted | _ => False end.
Definition flowed (s s' : rsource) : Prop := exists used, rs_script s = used ++ rs_script s' /\ Forall flows used.
Definition ran_dry (s s' : rsource) : Prop := exists used k,
  rs_script s = used ++ Give k :: rs_script s' /\ Forall flows used /\ (k <= 0 \/ rs_src s' = []).
Definition broke (s s' : rsource) (e : io_error) : Prop := exists used x,
  rs_script s = used ++ RFail x e :: rs_script s' /\ Forall flows used /\ io_kind_of e <> Interrupted.
Definition blew (s s' : rsource) : Prop := exists used x,
  rs_script s = used ++ RBoom x :: rs_script s' /\ Forall flows used.
