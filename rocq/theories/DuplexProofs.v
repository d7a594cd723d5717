(** Wrapping and forwarding: each direction of a wrapped socket behaves like
    the buffered reader or writer of BufModel.v alone. *)
From Coq Require Import Lia.
From Verif Require Import Base ErrorModel RingSpec RingModel BufSpec BufModel DuplexModel DuplexSpec.

(** [set v i] replaces the part [get i]. *)
Record lens {I V : Type} (get : I -> V) (set : V -> I -> I) : Prop := {
  ln_get : forall v i, get (set v i) = v;
  ln_set : forall v w i, set v (set w i) = set v i;
  ln_same : forall i, set (get i) i = i
}.

(** ** The reading side of an inner object is a source *)
Section Read.
  Variable t : target.
  Context {I : Type}.
  Variables (st : stream I) (get : I -> rsource) (set : rsource -> I -> I).
  Hypothesis L : lens get set.
  Hypothesis Rd : forall n i, s_read st n i = let '(s, d, r) := src_read n (get i) in (set s i, d, r).
  Hypothesis Lf : forall i, s_rleft st i = length (rs_script (get i)).

  Definition rview (b : gread I) : bufreader := {| br_ring := gr_ring b; br_src := get (gr_in b); br_lowat := gr_lowat b |}.
  Definition rback (v : bufreader) (b : gread I) : gread I := {| gr_ring := br_ring v; gr_in := set (br_src v) (gr_in b); gr_lowat := br_lowat v |}.
  Lemma rlens : lens rview rback.
  Proof.
    split.
    - intros [r s l] [r' i l']. unfold rview, rback. cbn. rewrite (ln_get _ _ L). reflexivity.
    - intros [r s l] [r' s' l'] [r2 i l2]. unfold rback. cbn. rewrite (ln_set _ _ L). reflexivity.
    - intros [r i l]. unfold rview, rback. cbn. rewrite (ln_same _ _ L). reflexivity.
  Qed.
  Notation back2 b x := (let '(v, r) := x in (rback v b, r)).
  Notation back3 b x := (let '(v, d, r) := x in (rback v b, d, r)).
  Lemma rself b : rback (rview b) b = b.
  Proof. apply (ln_same _ _ rlens). Qed.

  Lemma fill_as b : gr_fill_buf t st b = back2 b (br_fill_buf t (rview b)).
  Proof.
    unfold gr_fill_buf, br_fill_buf. cbn [sbind rview br_ring br_lowat]. destruct (ring_read_len t (gr_ring b)) as [rl|e| | |]; cbn [sbind]; rewrite ?rself; try reflexivity.
    destruct (rl <=? gr_lowat b); [|cbn [sbind]; rewrite rself; reflexivity].
    destruct (ring_write_slice t (gr_ring b) (umax t)) as [w|e| | |]; cbn [sbind]; rewrite ?rself; try reflexivity.
    rewrite Rd. cbn [rview br_src]. destruct (src_read (zlen w) (get (gr_in b))) as [[s d] res].
    unfold gr_on_ring, on_ring. cbn [gr_with_in gr_ring br_with_src br_ring].
    change (br_ring (rview b)) with (gr_ring b). destruct (ring_slice_store t (gr_ring b) (umax t) 0 d) as [r1|e| | |]; cbn [sbind]; try reflexivity.
    destruct res as [n|e| | |]; cbn [sbind]; try reflexivity.
    unfold gr_on_ring, on_ring. cbn [gr_with_ring br_with_ring gr_ring br_ring].
    destruct (ring_feed t r1 n) as [r2|e| | |]; reflexivity.
  Qed.
  Lemma consume_as b n : gr_consume t b n = back2 b (br_consume t (rview b) n).
  Proof.
    unfold gr_consume, br_consume, gr_on_ring, on_ring. cbn [rview br_ring]. destruct (ring_consume t (gr_ring b) n) as [r|e| | |]; rewrite ?rself; try reflexivity.
    unfold rback, gr_with_ring, br_with_ring. cbn. rewrite (ln_same _ _ L). reflexivity.
  Qed.
  Lemma read_as n b : gr_read t st n b = back3 b (br_read t (rview b) n).
  Proof.
    unfold gr_read, br_read. cbn [sbind rview br_ring]. destruct (ring_read_len t (gr_ring b)) as [rl|e| | |]; cbn [sbind]; rewrite ?rself; try reflexivity.
    destruct ((rl =? 0) && (ring_write_capacity (gr_ring b) <=? n)).
    - rewrite Rd. change (br_src (rview b)) with (get (gr_in b)). destruct (src_read n (get (gr_in b))) as [[s d] res]. reflexivity.
    - rewrite fill_as. fold (rview b). destruct (br_fill_buf t (rview b)) as [v1 [av|e| | |]]; try reflexivity.
      rewrite consume_as. rewrite (ln_get _ _ rlens). destruct (br_consume t v1 (zlen (ztake n av))) as [v2 [[]|e| | |]]; rewrite (ln_set _ _ rlens); reflexivity.
  Qed.
  Lemma until_as c fuel : forall b acc, gr_until_loop t st fuel b c acc = back3 b (br_until_loop t fuel (rview b) c acc).
  Proof.
    induction fuel as [|f IH]; intros b acc; cbn [gr_until_loop br_until_loop]; [rewrite rself; reflexivity|].
    rewrite fill_as. destruct (br_fill_buf t (rview b)) as [v1 [av|e| | |]]; try reflexivity.
    - destruct (find_byte c av) as [k|]; rewrite consume_as, (ln_get _ _ rlens).
      + destruct (br_consume t v1 (k + 1)) as [v2 r2]. rewrite (ln_set _ _ rlens). reflexivity.
      + destruct (br_consume t v1 (zlen av)) as [v2 [[]|e| | |]]; rewrite (ln_set _ _ rlens); try reflexivity.
        destruct (zlen av =? 0); [reflexivity|]. rewrite IH, (ln_get _ _ rlens). destruct (br_until_loop t f v2 c (acc ++ av)) as [[v3 d] r3]. rewrite (ln_set _ _ rlens). reflexivity.
    - destruct (io_kind_of e); try reflexivity. rewrite IH, (ln_get _ _ rlens). destruct (br_until_loop t f v1 c acc) as [[v3 d] r3]. rewrite (ln_set _ _ rlens). reflexivity.
  Qed.
  Lemma exact_as fuel : forall b n acc, std_read_exact (gr_read t st) fuel b n acc = back3 b (br_exact_loop t fuel (rview b) n acc).
  Proof.
    induction fuel as [|f IH]; intros b n acc; cbn [std_read_exact br_exact_loop]; (destruct (n <=? 0); [rewrite rself; reflexivity|]); [rewrite rself; reflexivity|].
    rewrite read_as. destruct (br_read t (rview b) n) as [[v1 d] [k|e| | |]]; try reflexivity.
    - destruct (k =? 0); [reflexivity|]. destruct (n <? k); [reflexivity|]. rewrite IH, (ln_get _ _ rlens).
      destruct (br_exact_loop t f v1 (n - k) (acc ++ d)) as [[v3 d3] r3]. rewrite (ln_set _ _ rlens). reflexivity.
    - destruct (io_kind_of e); try reflexivity. rewrite IH, (ln_get _ _ rlens). destruct (br_exact_loop t f v1 n acc) as [[v3 d3] r3]. rewrite (ln_set _ _ rlens). reflexivity.
  Qed.
  Lemma rstep_as o b : gr_step t st o b = back3 b (br_step t (rview b) o).
  Proof.
    destruct o as [n| |n|n|c|n]; cbn [gr_step br_step].
    - rewrite read_as. destruct (br_read t (rview b) n) as [[v d] r]. reflexivity.
    - rewrite fill_as. destruct (br_fill_buf t (rview b)) as [v r]. reflexivity.
    - rewrite consume_as. destruct (br_consume t (rview b) n) as [v r]. reflexivity.
    - unfold br_set_lowat, gr_set_lowat, rback, rview. cbn. rewrite (ln_same _ _ L). reflexivity.
    - unfold br_read_until. rewrite until_as, Lf. reflexivity.
    - unfold br_read_exact. rewrite exact_as, Lf. reflexivity.
  Qed.
End Read.

(** ** The writing side is a sink *)
Section Write.
  Variable t : target.
  Context {I : Type}.
  Variables (st : stream I) (get : I -> wsink) (set : wsink -> I -> I).
  Hypothesis L : lens get set.
  Hypothesis Wr : forall buf i, s_write st buf i = let '(s, r) := sink_write buf (get i) in (set s i, r).
  Hypothesis Fl : forall i, s_flush st i = let '(s, r) := sink_flush (get i) in (set s i, r).
  Hypothesis Lf : forall i, s_wleft st i = length (ws_script (get i)).

  Definition wview (b : gwrite I) : bufwriter := {| bw_ring := gw_ring b; bw_sink := get (gw_in b); bw_panicked := gw_panicked b |}.
  Definition wback (v : bufwriter) (b : gwrite I) : gwrite I := {| gw_ring := bw_ring v; gw_in := set (bw_sink v) (gw_in b); gw_panicked := bw_panicked v |}.
  Lemma wlens : lens wview wback.
  Proof.
    split.
    - intros [r s l] [r' i l']. unfold wview, wback. cbn. rewrite (ln_get _ _ L). reflexivity.
    - intros [r s l] [r' s' l'] [r2 i l2]. unfold wback. cbn. rewrite (ln_set _ _ L). reflexivity.
    - intros [r i l]. unfold wview, wback. cbn. rewrite (ln_same _ _ L). reflexivity.
  Qed.
  Notation back2 b x := (let '(v, r) := x in (wback v b, r)).
  Notation back3 b x := (let '(v, d, r) := x in (wback v b, d, r)).
  Lemma wself b : wback (wview b) b = b.
  Proof. apply (ln_same _ _ wlens). Qed.
  Lemma inner_as b buf : gw_inner_write st b buf = back2 b (bw_inner_write (wview b) buf).
  Proof. unfold gw_inner_write, bw_inner_write. rewrite Wr. cbn [wview bw_sink]. destruct (sink_write buf (get (gw_in b))) as [s r]. reflexivity. Qed.
  Lemma wflush_as fuel : forall b, gw_flush_loop t st fuel b = back2 b (bw_flush_loop t fuel (wview b)).
  Proof.
    induction fuel as [|f IH]; intros b; cbn [gw_flush_loop bw_flush_loop]; [rewrite wself; reflexivity|].
    cbn [wview bw_ring]. destruct (ring_is_empty t (gw_ring b)) as [em|e| | |]; cbn [sbind]; fold (wview b); rewrite ?wself; try reflexivity.
    destruct em; [rewrite wself; reflexivity|]. unfold gw_buffer, bw_buffer. cbn [wview bw_ring].
    destruct (ring_read_slice t (gw_ring b) (umax t)) as [data|e| | |]; cbn [sbind]; fold (wview b); rewrite ?wself; try reflexivity.
    rewrite inner_as. destruct (bw_inner_write (wview b) data) as [v1 [n|e| | |]]; try reflexivity.
    - destruct (n =? 0); [reflexivity|]. cbn [wback gw_ring gw_in gw_panicked]. destruct (ring_consume t (bw_ring v1) n) as [r'|e| | |]; try reflexivity.
      set (v2 := {| bw_ring := r'; bw_sink := bw_sink v1; bw_panicked := bw_panicked v1 |}).
      change {| gw_ring := r'; gw_in := set (bw_sink v1) (gw_in b); gw_panicked := bw_panicked v1 |} with (wback v2 b).
      rewrite IH, (ln_get _ _ wlens). destruct (bw_flush_loop t f v2) as [v3 r3]. rewrite (ln_set _ _ wlens). reflexivity.
    - destruct (io_kind_of e); try reflexivity. rewrite IH, (ln_get _ _ wlens). destruct (bw_flush_loop t f v1) as [v3 r3]. rewrite (ln_set _ _ wlens). reflexivity.
  Qed.
  Lemma flush_buf_as b : gw_flush_buf t st b = back2 b (bw_flush_buf t (wview b)).
  Proof. unfold gw_flush_buf, bw_flush_buf. rewrite Lf. apply wflush_as. Qed.
  Lemma write_as buf b : gw_write t st buf b = back2 b (bw_write t (wview b) buf).
  Proof.
    unfold gw_write, bw_write. cbn [wview bw_ring]. destruct (ring_write_len t (gw_ring b)) as [wl|e| | |]; cbn [sbind]; fold (wview b); rewrite ?wself; try reflexivity.
    assert (E : (if wl <? zlen buf then gw_flush_buf t st b else (b, Ret tt)) = back2 b (if wl <? zlen buf then bw_flush_buf t (wview b) else (wview b, Ret tt))).
    { destruct (wl <? zlen buf); [apply flush_buf_as|]. rewrite wself. reflexivity. }
    rewrite E. destruct (if wl <? zlen buf then bw_flush_buf t (wview b) else (wview b, Ret tt)) as [v1 [[]|e| | |]]; cbn [sbind]; try reflexivity.
    cbn [wback gw_ring]. destruct (ring_write_len t (bw_ring v1)) as [wl'|e| | |]; cbn [sbind]; try reflexivity. fold (wback v1 b).
    destruct (wl' <=? zlen buf).
    - rewrite inner_as, (ln_get _ _ wlens). destruct (bw_inner_write v1 buf) as [v2 r]. rewrite (ln_set _ _ wlens). reflexivity.
    - destruct (ring_write t (bw_ring v1) buf) as [[r' n]|e| | |]; reflexivity.
  Qed.
  Lemma gflush_as b : gw_flush t st b = back2 b (bw_flush t (wview b)).
  Proof.
    unfold gw_flush, bw_flush. rewrite flush_buf_as. destruct (bw_flush_buf t (wview b)) as [v1 [[]|e| | |]]; cbn [sbind]; try reflexivity.
    rewrite Fl. cbn [wback gw_in gw_ring gw_panicked]. rewrite (ln_get _ _ L). destruct (sink_flush (bw_sink v1)) as [s r].
    rewrite (ln_set _ _ L). reflexivity.
  Qed.
  Lemma write_all_as fuel : forall b buf told, std_write_all (gw_write t st) fuel b buf told = back3 b (bw_write_all_loop t fuel (wview b) buf told).
  Proof.
    induction fuel as [|f IH]; intros b buf told; destruct buf as [|x buf]; cbn [std_write_all bw_write_all_loop]; rewrite ?wself; try reflexivity.
    rewrite write_as. destruct (bw_write t (wview b) (x :: buf)) as [v1 [n|e| | |]]; try reflexivity.
    - destruct (n =? 0); [reflexivity|]. destruct (zlen (x :: buf) <? n); [reflexivity|]. rewrite IH, (ln_get _ _ wlens).
      destruct (bw_write_all_loop t f v1 (zdrop n (x :: buf)) (told ++ ztake n (x :: buf))) as [[v3 d3] r3]. rewrite (ln_set _ _ wlens). reflexivity.
    - destruct (io_kind_of e); try reflexivity. rewrite IH, (ln_get _ _ wlens). destruct (bw_write_all_loop t f v1 (x :: buf) told) as [[v3 d3] r3]. rewrite (ln_set _ _ wlens). reflexivity.
  Qed.
  Lemma wstep_as o b : gw_step t st o b = back3 b (bw_step t (wview b) o).
  Proof.
    destruct o as [buf|buf|]; cbn [gw_step bw_step].
    - rewrite write_as. destruct (bw_write t (wview b) buf) as [v r]. reflexivity.
    - unfold bw_write_all. rewrite write_all_as, Lf. reflexivity.
    - rewrite gflush_as. destruct (bw_flush t (wview b)) as [v r]. reflexivity.
  Qed.
  Lemma drop_as b : gw_drop t st b = let '(s, r) := bw_drop t (wview b) in (set s (gw_in b), r).
  Proof.
    unfold gw_drop, bw_drop. cbn [wview bw_panicked]. destruct (gw_panicked b); [change (bw_sink (wview b)) with (get (gw_in b)); rewrite (ln_same _ _ L); reflexivity|].
    fold (wview b). rewrite flush_buf_as. destruct (bw_flush_buf t (wview b)) as [v [[]|e| | |]]; reflexivity.
  Qed.
End Write.

(** ** Two independent parts of one object *)
Record parts {X VR VW : Type} (gr : X -> VR) (sr : VR -> X -> X) (gw : X -> VW) (sw : VW -> X -> X) : Prop := {
  pt_r : lens gr sr; pt_w : lens gw sw;
  pt_rw : forall v x, gr (sw v x) = gr x;
  pt_wr : forall v x, gw (sr v x) = gw x
}.

Section Both.
  Context {X VR VW : Type} {gr : X -> VR} {sr : VR -> X -> X} {gw : X -> VW} {sw : VW -> X -> X}.
  Variable dx : duplex X.
  Variables (rstep : VR -> brop -> VR * bytes * out io_error unit) (wstep : VW -> bwop -> VW * bytes * out io_error unit).
  Hypothesis P : parts gr sr gw sw.
  Hypothesis Rd : forall o x, d_read dx o x = let '(v, d, r) := rstep (gr x) o in (sr v x, d, r).
  Hypothesis Wr : forall o x, d_write dx o x = let '(v, d, r) := wstep (gw x) o in (sw v x, d, r).

  Lemma run_parts : forall os x x' xs, dx_run dx x os = (x', xs) ->
    trace rstep (gr x) (map fst (reads_of os xs)) = (gr x', reads_of os xs)
    /\ trace wstep (gw x) (map fst (writes_of os xs)) = (gw x', writes_of os xs).
  Proof.
    assert (R0 : forall os, reads_of os [] = []) by (destruct os as [|[]]; reflexivity).
    assert (W0 : forall os, writes_of os [] = []) by (destruct os as [|[]]; reflexivity).
    induction os as [|o os IH]; intros x x' xs H.
    - inversion H; subst. split; reflexivity.
    - cbn [dx_run] in H. destruct o as [o|o].
      + rewrite Rd in H. destruct (rstep (gr x) o) as [[v d] r] eqn:E.
        assert (Hgo : forall x2 ys, dx_run dx (sr v x) os = (x2, ys) -> r <> Fault -> r <> Blocked -> (x', xs) = (x2, (d, r) :: ys) ->
          trace rstep (gr x) (map fst (reads_of (DRead o :: os) xs)) = (gr x', reads_of (DRead o :: os) xs)
          /\ trace wstep (gw x) (map fst (writes_of (DRead o :: os) xs)) = (gw x', writes_of (DRead o :: os) xs)).
        { intros x2 ys H2 N1 N2 Q. inversion Q; subst x2 xs. destruct (IH _ _ _ H2) as [A B]. rewrite (ln_get _ _ (pt_r _ _ _ _ P)) in A.
          rewrite (pt_wr _ _ _ _ P) in B. split; [|exact B]. cbn [reads_of map fst trace]. rewrite E. rewrite A.
          destruct r; try reflexivity; congruence. }
        assert (Hstop : (x', xs) = (sr v x, [(d, r)]) -> r = Fault \/ r = Blocked ->
          trace rstep (gr x) (map fst (reads_of (DRead o :: os) xs)) = (gr x', reads_of (DRead o :: os) xs)
          /\ trace wstep (gw x) (map fst (writes_of (DRead o :: os) xs)) = (gw x', writes_of (DRead o :: os) xs)).
        { intros Q Rs. inversion Q; subst x' xs. cbn [reads_of writes_of].
          rewrite R0, W0. cbn [map fst trace]. rewrite E. rewrite (ln_get _ _ (pt_r _ _ _ _ P)), (pt_wr _ _ _ _ P).
          destruct Rs as [-> | ->]; split; reflexivity. }
        destruct r as [u|e| | |]; try (apply Hstop; [congruence|auto]).
        all: destruct (dx_run dx (sr v x) os) as [x2 ys] eqn:E2; apply (Hgo x2 ys); congruence.
      + rewrite Wr in H. destruct (wstep (gw x) o) as [[v d] r] eqn:E.
        assert (Hgo : forall x2 ys, dx_run dx (sw v x) os = (x2, ys) -> r <> Fault -> r <> Blocked -> (x', xs) = (x2, (d, r) :: ys) ->
          trace rstep (gr x) (map fst (reads_of (DWrite o :: os) xs)) = (gr x', reads_of (DWrite o :: os) xs)
          /\ trace wstep (gw x) (map fst (writes_of (DWrite o :: os) xs)) = (gw x', writes_of (DWrite o :: os) xs)).
        { intros x2 ys H2 N1 N2 Q. inversion Q; subst x2 xs. destruct (IH _ _ _ H2) as [A B]. rewrite (ln_get _ _ (pt_w _ _ _ _ P)) in B.
          rewrite (pt_rw _ _ _ _ P) in A. split; [exact A|]. cbn [writes_of map fst trace]. rewrite E. rewrite B.
          destruct r; try reflexivity; congruence. }
        assert (Hstop : (x', xs) = (sw v x, [(d, r)]) -> r = Fault \/ r = Blocked ->
          trace rstep (gr x) (map fst (reads_of (DWrite o :: os) xs)) = (gr x', reads_of (DWrite o :: os) xs)
          /\ trace wstep (gw x) (map fst (writes_of (DWrite o :: os) xs)) = (gw x', writes_of (DWrite o :: os) xs)).
        { intros Q Rs. inversion Q; subst x' xs. cbn [reads_of writes_of].
          rewrite R0, W0. cbn [map fst trace]. rewrite E. rewrite (ln_get _ _ (pt_w _ _ _ _ P)), (pt_rw _ _ _ _ P).
          destruct Rs as [-> | ->]; split; reflexivity. }
        destruct r as [u|e| | |]; try (apply Hstop; [congruence|auto]).
        all: destruct (dx_run dx (sw v x) os) as [x2 ys] eqn:E2; apply (Hgo x2 ys); congruence.
  Qed.
End Both.

Lemma trace_br t : forall os b b' xs, trace (br_step t) b os = (b', xs) -> br_run t b os = (b', moved_by xs, results_of xs).
Proof.
  induction os as [|o os IH]; intros b b' xs H; cbn [trace br_run] in *; [inversion H; reflexivity|].
  destruct (br_step t b o) as [[b1 d] r]. destruct r as [u|e| | |];
    try (inversion H; subst; unfold moved_by, results_of; cbn [map concat fst snd]; rewrite app_nil_r; reflexivity).
  all: destruct (trace (br_step t) b1 os) as [b2 ys] eqn:E2; inversion H; subst; rewrite (IH _ _ _ E2); reflexivity.
Qed.
Lemma trace_bw t : forall os b b' xs, trace (bw_step t) b os = (b', xs) -> bw_run t b os = (b', moved_by xs, results_of xs).
Proof.
  induction os as [|o os IH]; intros b b' xs H; cbn [trace bw_run] in *; [inversion H; reflexivity|].
  destruct (bw_step t b o) as [[b1 d] r]. destruct r as [u|e| | |];
    try (inversion H; subst; unfold moved_by, results_of; cbn [map concat fst snd]; rewrite app_nil_r; reflexivity).
  all: destruct (trace (bw_step t) b1 os) as [b2 ys] eqn:E2; inversion H; subst; rewrite (IH _ _ _ E2); reflexivity.
Qed.

(** ** The shapes *)
Definition set_in (s : rsource) (k : sock) : sock := {| sk_in := s; sk_out := sk_out k |}.
Definition set_out (s : wsink) (k : sock) : sock := {| sk_in := sk_in k; sk_out := s |}.
Lemma sock_parts : parts sk_in set_in sk_out set_out.
Proof. repeat split; intros; try destruct i; reflexivity. Qed.
Lemma sock_read_as n k : s_read sock_stream n k = let '(s, d, r) := src_read n (sk_in k) in (set_in s k, d, r).
Proof. reflexivity. Qed.
Lemma sock_write_as b k : s_write sock_stream b k = let '(s, r) := sink_write b (sk_out k) in (set_out s k, r).
Proof. reflexivity. Qed.
Lemma sock_flush_as k : s_flush sock_stream k = let '(s, r) := sink_flush (sk_out k) in (set_out s k, r).
Proof. reflexivity. Qed.

(** Through a wrapper. *)
Definition through_w {V} (set : V -> sock -> sock) (v : V) (x : gwrite sock) : gwrite sock := gw_with_in x (set v (gw_in x)).
Definition through_r {V} (set : V -> sock -> sock) (v : V) (x : gread sock) : gread sock := gr_with_in x (set v (gr_in x)).
Lemma through_w_lens {V} (get : sock -> V) set : lens get set -> lens (fun x : gwrite sock => get (gw_in x)) (through_w set).
Proof.
  intros [A B C]. split.
  - intros v [r i p]. apply A.
  - intros v w [r i p]. unfold through_w, gw_with_in. cbn. rewrite B. reflexivity.
  - intros [r i p]. unfold through_w, gw_with_in. cbn. rewrite C. reflexivity.
Qed.
Lemma through_r_lens {V} (get : sock -> V) set : lens get set -> lens (fun x : gread sock => get (gr_in x)) (through_r set).
Proof.
  intros [A B C]. split.
  - intros v [r i p]. apply A.
  - intros v w [r i p]. unfold through_r, gr_with_in. cbn. rewrite B. reflexivity.
  - intros [r i p]. unfold through_r, gr_with_in. cbn. rewrite C. reflexivity.
Qed.

Section Shapes.
  Variable t : target.
  Let Lin := pt_r _ _ _ _ sock_parts.
  Let Lout := pt_w _ _ _ _ sock_parts.

  (** [BufReader<Sock>]: the reading side *)
  Lemma rd_read_as o x : d_read (rd_sock t) o x = let '(v, d, r) := br_step t (rd_reader x) o in (rback set_in v x, d, r).
  Proof. apply (rstep_as t sock_stream sk_in set_in Lin sock_read_as (fun _ => eq_refl)). Qed.
  Lemma wr_write_as o x : d_write (wr_sock t) o x = let '(v, d, r) := bw_step t (wr_writer x) o in (wback set_out v x, d, r).
  Proof. apply (wstep_as t sock_stream sk_out set_out Lout sock_write_as sock_flush_as (fun _ => eq_refl)). Qed.

  (** [BufReader<BufWriter<Sock>>] *)
  Definition rw_back_r : bufreader -> gread (gwrite sock) -> gread (gwrite sock) := rback (through_w set_in).
  Definition rw_back_w (v : bufwriter) (x : gread (gwrite sock)) := gr_with_in x (wback set_out v (gr_in x)).
  Lemma rw_parts : parts rw_reader rw_back_r rw_writer rw_back_w.
  Proof.
    split.
    - apply (rlens (fun x : gwrite sock => sk_in (gw_in x))). apply through_w_lens, Lin.
    - destruct (wlens sk_out set_out Lout) as [A B C]. split.
      + intros v [r i l]. apply A.
      + intros v w [r i l]. unfold rw_back_w, gr_with_in. cbn [gr_ring gr_in gr_lowat]. rewrite B. reflexivity.
      + intros [r i l]. unfold rw_back_w, gr_with_in. cbn [gr_ring gr_in gr_lowat]. change (rw_writer {| gr_ring := r; gr_in := i; gr_lowat := l |}) with (wview sk_out i). rewrite C. reflexivity.
    - intros v [r [r2 k p] l]. reflexivity.
    - intros v [r [r2 k p] l]. reflexivity.
  Qed.
  Lemma rw_read_as o x : d_read (rw_sock t) o x = let '(v, d, r) := br_step t (rw_reader x) o in (rw_back_r v x, d, r).
  Proof.
    apply (rstep_as t (writer_stream t sock_stream) (fun x : gwrite sock => sk_in (gw_in x)) (through_w set_in)).
    - apply through_w_lens, Lin.
    - intros n [r k p]. cbn [writer_stream s_read gw_in]. rewrite sock_read_as. destruct (src_read n (sk_in k)) as [[s d] q]. reflexivity.
    - reflexivity.
  Qed.
  Lemma rw_write_as o x : d_write (rw_sock t) o x = let '(v, d, r) := bw_step t (rw_writer x) o in (rw_back_w v x, d, r).
  Proof.
    cbn [rw_sock reader_duplex d_write]. rewrite wr_write_as. unfold rw_writer. destruct (bw_step t (wr_writer (gr_in x)) o) as [[v d] r]. reflexivity.
  Qed.

  (** [BufWriter<BufReader<Sock>>] *)
  Definition wrd_back_w : bufwriter -> gwrite (gread sock) -> gwrite (gread sock) := wback (through_r set_out).
  Definition wrd_back_r (v : bufreader) (x : gwrite (gread sock)) := gw_with_in x (rback set_in v (gw_in x)).
  Lemma wrd_parts : parts wrd_reader wrd_back_r wrd_writer wrd_back_w.
  Proof.
    split.
    - destruct (rlens sk_in set_in Lin) as [A B C]. split.
      + intros v [r i l]. apply A.
      + intros v w [r i l]. unfold wrd_back_r, gw_with_in. cbn [gw_ring gw_in gw_panicked]. rewrite B. reflexivity.
      + intros [r i l]. unfold wrd_back_r, gw_with_in. cbn [gw_ring gw_in gw_panicked]. change (wrd_reader {| gw_ring := r; gw_in := i; gw_panicked := l |}) with (rview sk_in i). rewrite C. reflexivity.
    - apply (wlens (fun x : gread sock => sk_out (gr_in x))). apply through_r_lens, Lout.
    - intros v [r [r2 k p] l]. reflexivity.
    - intros v [r [r2 k p] l]. reflexivity.
  Qed.
  Lemma wrd_write_as o x : d_write (wr_rd_sock t) o x = let '(v, d, r) := bw_step t (wrd_writer x) o in (wrd_back_w v x, d, r).
  Proof.
    apply (wstep_as t (reader_stream t sock_stream) (fun x : gread sock => sk_out (gr_in x)) (through_r set_out)).
    - apply through_r_lens, Lout.
    - intros b [r k p]. cbn [reader_stream s_write gr_in]. rewrite sock_write_as. destruct (sink_write b (sk_out k)) as [s q]. reflexivity.
    - intros [r k p]. cbn [reader_stream s_flush gr_in]. rewrite sock_flush_as. destruct (sink_flush (sk_out k)) as [s q]. reflexivity.
    - reflexivity.
  Qed.
  Lemma wrd_read_as o x : d_read (wr_rd_sock t) o x = let '(v, d, r) := br_step t (wrd_reader x) o in (wrd_back_r v x, d, r).
  Proof.
    cbn [wr_rd_sock writer_duplex d_read]. rewrite rd_read_as. unfold wrd_reader. destruct (br_step t (rd_reader (gw_in x)) o) as [[v d] r]. reflexivity.
  Qed.

  Lemma rw_run x x' os xs : dx_run (rw_sock t) x os = (x', xs) ->
    trace (br_step t) (rw_reader x) (map fst (reads_of os xs)) = (rw_reader x', reads_of os xs)
    /\ trace (bw_step t) (rw_writer x) (map fst (writes_of os xs)) = (rw_writer x', writes_of os xs).
  Proof. exact (run_parts (rw_sock t) (br_step t) (bw_step t) rw_parts rw_read_as rw_write_as os x x' xs). Qed.
  Lemma wrd_run x x' os xs : dx_run (wr_rd_sock t) x os = (x', xs) ->
    trace (br_step t) (wrd_reader x) (map fst (reads_of os xs)) = (wrd_reader x', reads_of os xs)
    /\ trace (bw_step t) (wrd_writer x) (map fst (writes_of os xs)) = (wrd_writer x', writes_of os xs).
  Proof. exact (run_parts (wr_rd_sock t) (br_step t) (bw_step t) wrd_parts wrd_read_as wrd_write_as os x x' xs). Qed.

  (** Nothing in between: a socket's own calls. *)
  Lemma std_exact_as fuel : forall k n acc, std_read_exact sock_read fuel k n acc = let '(s, d, r) := std_read_exact src_read fuel (sk_in k) n acc in (set_in s k, d, r).
  Proof.
    induction fuel as [|f IH]; intros k n acc; cbn [std_read_exact]; destruct (n <=? 0); try (destruct k; reflexivity).
    unfold sock_read. destruct (src_read n (sk_in k)) as [[s d] [c|e| | |]]; try reflexivity.
    - destruct (c =? 0); [reflexivity|]. destruct (n <? c); [reflexivity|]. rewrite IH. cbn [sk_in].
      destruct (std_read_exact src_read f s (n - c) (acc ++ d)) as [[s2 d2] r2]. reflexivity.
    - destruct (io_kind_of e); try reflexivity. rewrite IH. cbn [sk_in]. destruct (std_read_exact src_read f s n acc) as [[s2 d2] r2]. reflexivity.
  Qed.
  Lemma std_all_as fuel : forall k buf acc, std_write_all sock_write fuel k buf acc = let '(s, d, r) := std_write_all sink_write fuel (sk_out k) buf acc in (set_out s k, d, r).
  Proof.
    induction fuel as [|f IH]; intros k buf acc; destruct buf as [|x buf]; cbn [std_write_all]; try (destruct k; reflexivity).
    unfold sock_write. destruct (sink_write (x :: buf) (sk_out k)) as [s [c|e| | |]]; try reflexivity.
    - destruct (c =? 0); [reflexivity|]. destruct (zlen (x :: buf) <? c); [reflexivity|]. rewrite IH. cbn [sk_out].
      destruct (std_write_all sink_write f s (zdrop c (x :: buf)) (acc ++ ztake c (x :: buf))) as [[s2 d2] r2]. reflexivity.
    - destruct (io_kind_of e); try reflexivity. rewrite IH. cbn [sk_out]. destruct (std_write_all sink_write f s (x :: buf) acc) as [[s2 d2] r2]. reflexivity.
  Qed.
  Lemma sock_reads_as o k : d_read sock_duplex o k = let '(s, d, r) := raw_read (sk_in k) o in (set_in s k, d, r).
  Proof.
    destruct o as [n| |n|n|c|n]; cbn [sock_duplex d_read raw_read]; try (destruct k; reflexivity).
    - unfold sock_read. destruct (src_read n (sk_in k)) as [[s d] r]. reflexivity.
    - apply std_exact_as.
  Qed.
  Lemma sock_writes_as o k : d_write sock_duplex o k = let '(s, d, r) := raw_write (sk_out k) o in (set_out s k, d, r).
  Proof.
    destruct o as [b|b|]; cbn [sock_duplex d_write raw_write].
    - unfold sock_write. destruct (sink_write b (sk_out k)) as [s r]. reflexivity.
    - apply std_all_as.
    - unfold sock_flush. destruct (sink_flush (sk_out k)) as [s r]. reflexivity.
  Qed.

  Lemma rd_parts : parts rd_reader (rback set_in) (fun x => sk_out (gr_in x)) (through_r set_out).
  Proof.
    split.
    - exact (rlens sk_in set_in Lin).
    - apply through_r_lens, Lout.
    - intros v [r k l]. reflexivity.
    - intros v [r k l]. reflexivity.
  Qed.
  Lemma rd_write_as o x : d_write (rd_sock t) o x = let '(v, d, r) := raw_write (sk_out (gr_in x)) o in (through_r set_out v x, d, r).
  Proof. cbn [rd_sock reader_duplex d_write]. rewrite sock_writes_as. destruct (raw_write (sk_out (gr_in x)) o) as [[v d] r]. reflexivity. Qed.
  Lemma rd_run x x' os xs : dx_run (rd_sock t) x os = (x', xs) ->
    trace (br_step t) (rd_reader x) (map fst (reads_of os xs)) = (rd_reader x', reads_of os xs)
    /\ trace raw_write (sk_out (gr_in x)) (map fst (writes_of os xs)) = (sk_out (gr_in x'), writes_of os xs).
  Proof. exact (run_parts (rd_sock t) (br_step t) raw_write rd_parts rd_read_as rd_write_as os x x' xs). Qed.

  Lemma wr_parts : parts (fun x => sk_in (gw_in x)) (through_w set_in) wr_writer (wback set_out).
  Proof.
    split.
    - apply through_w_lens, Lin.
    - exact (wlens sk_out set_out Lout).
    - intros v [r k l]. reflexivity.
    - intros v [r k l]. reflexivity.
  Qed.
  Lemma wr_read_as o x : d_read (wr_sock t) o x = let '(v, d, r) := raw_read (sk_in (gw_in x)) o in (through_w set_in v x, d, r).
  Proof. cbn [wr_sock writer_duplex d_read]. rewrite sock_reads_as. destruct (raw_read (sk_in (gw_in x)) o) as [[v d] r]. reflexivity. Qed.
  Lemma wr_run x x' os xs : dx_run (wr_sock t) x os = (x', xs) ->
    trace raw_read (sk_in (gw_in x)) (map fst (reads_of os xs)) = (sk_in (gw_in x'), reads_of os xs)
    /\ trace (bw_step t) (wr_writer x) (map fst (writes_of os xs)) = (wr_writer x', writes_of os xs).
  Proof. exact (run_parts (wr_sock t) raw_read (bw_step t) wr_parts wr_read_as wr_write_as os x x' xs). Qed.

  (** Dropping the writer inside: the socket's input is not touched. *)
  Lemma rw_drop_as x : gw_drop t sock_stream (gr_into_inner x) = let '(s, r) := bw_drop t (rw_writer x) in (set_out s (gw_in (gr_in x)), r).
  Proof. apply (drop_as t sock_stream sk_out set_out Lout sock_write_as (fun _ => eq_refl)). Qed.
  Lemma wrd_drop_as x : gw_drop t (reader_stream t sock_stream) x = let '(s, r) := bw_drop t (wrd_writer x) in (through_r set_out s (gw_in x), r).
  Proof.
    apply (drop_as t (reader_stream t sock_stream) (fun x : gread sock => sk_out (gr_in x)) (through_r set_out)).
    - apply through_r_lens, Lout.
    - intros b [r k p]. cbn [reader_stream s_write gr_in]. rewrite sock_write_as. destruct (sink_write b (sk_out k)) as [s q]. reflexivity.
    - reflexivity.
  Qed.
End Shapes.
