(** One inner object, used through a buffer and directly. *)
From Coq Require Import Permutation.
From Verif Require Import Base ErrorModel RingSpec RingModel BufSpec BufModel BufDirectModel.

(** Of the entries [xs], one for each call, those of the calls chosen by [p]. *)
Fixpoint pick {O A} (p : O -> bool) (os : list O) (xs : list A) : list A :=
  match os, xs with
  | o :: os, x :: xs => if p o then x :: pick p os xs else pick p os xs
  | _, _ => []
  end.
Definition direct_r (o : rcall) : bool := match o with RInner _ => true | ROp _ => false end.
Definition direct_w (o : wcall) : bool := match o with WOp _ => false | _ => true end.

(** The stream [src] was taken in pieces, one by each call in turn ([segs],
    possibly empty), up to [rest]: a direct call hands out exactly its piece;
    the pieces taken by the calls on the buffer come out of the buffer in
    order, and [buffered] is still in it. *)
Definition taken_in_turn (src : bytes) (os : list rcall) (outs : list bytes) (buffered rest : bytes) : Prop :=
  exists segs, length segs = length outs /\ src = concat segs ++ rest /\
    pick direct_r os segs = pick direct_r os outs /\
    concat (pick (fun o => negb (direct_r o)) os segs) = concat (pick (fun o => negb (direct_r o)) os outs) ++ buffered.

(** What the sink accepted ([acc]) came in pieces, one by each call in turn:
    a direct call brings exactly the bytes it reports; the pieces brought by
    calls on the buffer and what is [buffered] still are the bytes [before]
    buffered at first and those reported; in order if [order]. *)
Definition given_in_turn (before : bytes) (os : list wcall) (outs : list bytes) (buffered acc : bytes) (order : Prop) : Prop :=
  exists segs, length segs = length outs /\ acc = concat segs /\
    pick direct_w os segs = pick direct_w os outs /\
    let thr x := concat (pick (fun o => negb (direct_w o)) os x) in
    Permutation (before ++ thr outs) (thr segs ++ buffered) /\
    (order -> before ++ thr outs = thr segs ++ buffered).

(** No write through the buffer fills a non-empty buffer exactly (C48). *)
Fixpoint no_exact_fit (t : target) (b : bufwriter) (os : list wcall) : Prop :=
  match os with
  | [] => True
  | o :: os' =>
    (forall buf, o = WOp (WWrite buf) \/ o = WOp (WWriteAll buf) ->
      match bw_buffer t b with
      | Ret data => data = [] \/ buf = [] \/ zlen data + zlen buf <> ring_write_capacity (bw_ring b)
      | _ => True
      end) /\ no_exact_fit t (fst (fst (dw_step t b o))) os'
  end.

(** Every direct call finds the buffer empty. *)
Fixpoint settled_r (t : target) (b : bufreader) (os : list rcall) : Prop :=
  match os with
  | [] => True
  | o :: os' => (direct_r o = true -> br_buffer t b = Ret []) /\ settled_r t (fst (fst (dr_step t b o))) os'
  end.
Fixpoint settled_w (t : target) (b : bufwriter) (os : list wcall) : Prop :=
  match os with
  | [] => True
  | o :: os' => (direct_w o = true -> bw_buffer t b = Ret []) /\ settled_w t (fst (fst (dw_step t b o))) os'
  end.

Definition rcall_ok (t : target) (o : rcall) : Prop := match o with ROp o => brop_ok t o | RInner n => is_usize t n end.
Definition wcall_weight (o : wcall) : Z := match o with WOp o => bwop_weight o | _ => 0 end.
Definition wcalls_weight (os : list wcall) : Z := fold_right (fun o s => wcall_weight o + s) 0 os.
