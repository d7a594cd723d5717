(** Bytes through wrapped sockets, and from one peer to the other. *)
From Coq Require Import Lia Permutation.
From Verif Require Import Base ErrorModel RingSpec RingModel BufSpec BufModel SeqProofs SizeProofs RingTheorems RingClaims
  BufReaderProofs BufReasons BufWriterProofs BufClaims DuplexModel DuplexSpec DuplexProofs.

(** ** A socket's own calls move exactly what they report *)
Lemma raw_exact_moves fuel : forall s n acc s' d r, Forall honest (rs_script s) -> std_read_exact src_read fuel s n acc = (s', d, r) ->
  Forall honest (rs_script s') /\ exists more, d = acc ++ more /\ more ++ rs_src s' = rs_src s.
Proof.
  induction fuel as [|f IH]; intros s n acc s' d r Hh E; cbn [std_read_exact] in E; destruct (Z.leb_spec n 0).
  1-3: injection E as <- <- <-; split; [exact Hh|exists []; rewrite app_nil_r; auto].
  destruct (src_read n s) as [[s1 d1] r1] eqn:E1.
  destruct (src_read_spec n s s1 d1 r1 ltac:(lia) Hh E1) as (Hh1 & Hn1 & [(S0 & -> & -> & ->)|(a & Sa & _ & [(k & -> & Hs & -> & Hd)|[(x & e & -> & Hs & ->)|(x & -> & Hs & ->)]])]).
  - injection E as <- <- <-. split; [exact Hh|exists []; rewrite app_nil_r; auto].
  - destruct (Z.eqb_spec (zlen d1) 0) as [Hz|Hz].
    + injection E as <- <- <-. split; [exact Hh1|]. apply zlen_0 in Hz. rewrite Hz in Hs. exists []. rewrite app_nil_r. split; [reflexivity|symmetry; exact Hs].
    + destruct (n <? zlen d1) eqn:El; [apply Z.ltb_lt in El; lia|]. destruct (IH _ _ _ _ _ _ Hh1 E) as (H1 & more & -> & H2).
      split; [exact H1|]. exists (d1 ++ more). rewrite <- !app_assoc, H2. auto.
  - assert (Hn : forall e', (s1, acc, Err e' : out io_error unit) = (s', d, r) -> Forall honest (rs_script s') /\ exists more, d = acc ++ more /\ more ++ rs_src s' = rs_src s).
    { intros e' Q. injection Q as <- <- <-. split; [exact Hh1|]. exists []. rewrite app_nil_r. auto. }
    destruct (io_kind_of e); try (eapply Hn, E). destruct (IH _ _ _ _ _ _ Hh1 E) as (H1 & more & -> & H2). split; [exact H1|]. exists more. split; [reflexivity|congruence].
  - injection E as <- <- <-. split; [exact Hh1|]. exists []. rewrite app_nil_r. auto.
Qed.
Lemma raw_read_moves t s o s' d r : brop_ok t o -> Forall honest (rs_script s) -> raw_read s o = (s', d, r) ->
  Forall honest (rs_script s') /\ d ++ rs_src s' = rs_src s.
Proof.
  intros Ho Hh E. destruct o as [n| |n|n|c|n]; cbn [raw_read brop_ok] in *; try (injection E as <- <- <-; auto).
  - destruct (src_read n s) as [[s1 d1] r1] eqn:E1. unfold is_usize in Ho.
    destruct (src_read_spec n s s1 d1 r1 ltac:(lia) Hh E1) as (Hh1 & Hn1 & [(S0 & -> & -> & ->)|(a & Sa & _ & [(k & -> & Hs & -> & Hd)|[(x & e & -> & Hs & ->)|(x & -> & Hs & ->)]])]);
      injection E as <- <- <-; split; try assumption; auto. rewrite ztake_all by lia. auto.
  - destruct (raw_exact_moves _ _ _ _ _ _ _ Hh E) as (H1 & more & -> & H2). auto.
Qed.

Lemma sink_write_moves buf s s' r : Forall whonest (ws_script s) -> sink_write buf s = (s', r) ->
  Forall whonest (ws_script s') /\ accepted s' = accepted s ++ match r with Ret n => ztake n buf | _ => [] end /\ (forall n, r = Ret n -> n <= zlen buf).
Proof.
  intros Hh E. unfold sink_write in E. destruct (ws_script s) as [|a rest] eqn:Es.
  - injection E as <- <-. rewrite Es. split; [constructor|]. rewrite app_nil_r. split; [reflexivity|discriminate].
  - inversion Hh as [|? ? Ha Hr]; subst. unfold accepted. destruct a as [k|k|e|]; cbn [whonest] in Ha; try contradiction Ha; injection E as <- <-; cbn [ws_script ws_log]; (split; [exact Hr|]); rewrite flat_map_app; cbn [flat_map event_bytes app]; (split; [|try discriminate]); try reflexivity.
    + rewrite app_nil_r. f_equal. destruct (Z.le_gt_cases 0 k) as [Hk|Hk]; [|rewrite (ztake_neg k) by lia; unfold ztake; reflexivity].
      rewrite zlen_ztake by lia. destruct (Z.le_gt_cases k (zlen buf)); [rewrite Z.min_l by lia; reflexivity|]. rewrite Z.min_r by lia. rewrite !ztake_all by lia. reflexivity.
    + intros n [= <-]. destruct (Z.le_gt_cases 0 k) as [Hk|Hk]; [rewrite zlen_ztake by lia; lia|rewrite ztake_neg by lia; apply zlen_nonneg].
Qed.
Lemma raw_all_moves fuel : forall s buf acc s' d r, Forall whonest (ws_script s) -> std_write_all sink_write fuel s buf acc = (s', d, r) ->
  Forall whonest (ws_script s') /\ exists more, d = acc ++ more /\ accepted s' = accepted s ++ more.
Proof.
  induction fuel as [|f IH]; intros s buf acc s' d r Hh E; destruct buf as [|x buf]; cbn [std_write_all] in E.
  1-3: injection E as <- <- <-; split; [exact Hh|exists []; rewrite !app_nil_r; auto].
  destruct (sink_write (x :: buf) s) as [s1 r1] eqn:E1. destruct (sink_write_moves _ _ _ _ Hh E1) as (Hh1 & A1 & Le).
  destruct r1 as [n|e| | |].
  - destruct (Z.eqb_spec n 0) as [->|Hz].
    + injection E as <- <- <-. split; [exact Hh1|]. exists []. rewrite app_nil_r. auto.
    + pose proof (Le n eq_refl). destruct (Z.ltb_spec (zlen (x :: buf)) n); [lia|]. destruct (IH _ _ _ _ _ _ Hh1 E) as (H1 & more & -> & H2).
      split; [exact H1|]. exists (ztake n (x :: buf) ++ more). rewrite H2, A1, <- !app_assoc. auto.
  - assert (Hn : forall e', (s1, acc, Err e' : out io_error unit) = (s', d, r) -> Forall whonest (ws_script s') /\ exists more, d = acc ++ more /\ accepted s' = accepted s ++ more).
    { intros e' Q. injection Q as <- <- <-. split; [exact Hh1|]. exists []. rewrite app_nil_r. auto. }
    destruct (io_kind_of e); try (eapply Hn, E). destruct (IH _ _ _ _ _ _ Hh1 E) as (H1 & more & -> & H2). split; [exact H1|]. exists more. rewrite H2, A1, app_nil_r. auto.
  - injection E as <- <- <-. split; [exact Hh1|]. exists []. rewrite app_nil_r. auto.
  - injection E as <- <- <-. split; [exact Hh1|]. exists []. rewrite app_nil_r. auto.
  - injection E as <- <- <-. split; [exact Hh1|]. exists []. rewrite app_nil_r. auto.
Qed.
Lemma raw_write_moves s o s' d r : Forall whonest (ws_script s) -> raw_write s o = (s', d, r) ->
  Forall whonest (ws_script s') /\ accepted s' = accepted s ++ d.
Proof.
  intros Hh E. destruct o as [buf|buf|]; cbn [raw_write] in E.
  - destruct (sink_write buf s) as [s1 r1] eqn:E1. destruct (sink_write_moves _ _ _ _ Hh E1) as (H1 & A1 & _). injection E as <- <- <-. auto.
  - destruct (raw_all_moves _ _ _ _ _ _ _ Hh E) as (H1 & more & -> & H2). auto.
  - unfold sink_flush in E. destruct (ws_script s) as [|a rest] eqn:Es.
    + injection E as <- <- <-. rewrite Es, app_nil_r. auto.
    + inversion Hh; subst. unfold accepted. destruct a; injection E as <- <- <-; cbn [ws_script ws_log]; rewrite flat_map_app; cbn; auto.
Qed.
Lemma raw_reads_move t : forall os s s' xs, Forall (brop_ok t) os -> Forall honest (rs_script s) -> trace raw_read s os = (s', xs) -> moved_by xs ++ rs_src s' = rs_src s.
Proof.
  induction os as [|o os IH]; intros s s' xs Ho Hh E; cbn [trace] in E; [injection E as <- <-; reflexivity|].
  inversion Ho as [|? ? Ho1 Ho2]; subst. destruct (raw_read s o) as [[s1 d] r] eqn:E1. destruct (raw_read_moves t _ _ _ _ _ Ho1 Hh E1) as (H1 & M1).
  assert (K : forall ys, trace raw_read s1 os = (s', ys) -> xs = (o, (d, r)) :: ys -> moved_by xs ++ rs_src s' = rs_src s).
  { intros ys Ey ->. unfold moved_by. cbn [map concat fst snd]. rewrite <- app_assoc. fold (moved_by ys). rewrite (IH _ _ _ Ho2 H1 Ey). exact M1. }
  destruct r; try (injection E as <- <-; unfold moved_by; cbn [map concat fst snd]; rewrite app_nil_r; exact M1).
  all: destruct (trace raw_read s1 os) as [s2 ys] eqn:E2; injection E as <- <-; apply (K ys eq_refl eq_refl).
Qed.
Lemma raw_writes_move : forall os s s' xs, Forall whonest (ws_script s) -> trace raw_write s os = (s', xs) -> accepted s' = accepted s ++ moved_by xs.
Proof.
  induction os as [|o os IH]; intros s s' xs Hh E; cbn [trace] in E; [injection E as <- <-; unfold moved_by; cbn; rewrite app_nil_r; reflexivity|].
  destruct (raw_write s o) as [[s1 d] r] eqn:E1. destruct (raw_write_moves _ _ _ _ _ Hh E1) as (H1 & M1).
  assert (K : forall ys, trace raw_write s1 os = (s', ys) -> xs = (o, (d, r)) :: ys -> accepted s' = accepted s ++ moved_by xs).
  { intros ys Ey ->. unfold moved_by. cbn [map concat fst snd]. rewrite (IH _ _ _ H1 Ey), M1, <- app_assoc. reflexivity. }
  destruct r; try (injection E as <- <-; unfold moved_by; cbn [map concat fst snd]; rewrite app_nil_r; exact M1).
  all: destruct (trace raw_write s1 os) as [s2 ys] eqn:E2; injection E as <- <-; apply (K ys eq_refl eq_refl).
Qed.

Lemma reads_ok t : forall os xs, Forall (dxop_ok t) os -> Forall (brop_ok t) (map fst (reads_of os xs)).
Proof.
  induction os as [|[o|o] os IH]; intros xs H; destruct xs as [|x xs]; cbn [reads_of map]; try constructor; inversion H; subst; auto.
Qed.

(** ** Whole histories *)
Section H.
  Variable t : target.
  Hypothesis Hg : good_target t.
  Let Hbits := good_bits t Hg.

  Lemma make_empty cap m : 0 < cap -> 2 * cap < 2 ^ t_bits t -> ring_read_slice t (ring_make cap m) (umax t) = Ret [].
  Proof.
    intros Hc Hw. assert (R0 : ring_reached t cap [] (ring_make cap m)).
    { split; [exact Hc|]. split; [exact Hw|]. split; [exact I|]. exists m, []. reflexivity. }
    destruct (reached_shows t Hg _ _ _ R0) as (q & S). pose proof S as (_ & _ & L & _ & RS & _).
    rewrite (RS (umax t) (is_usize_umax t Hbits)).
    destruct (ring_queue t Hg cap m [] Hc Hw I) as (res & Q & M).
    inversion Q; subst. destruct M as (r' & X & S'). injection X as <-.
    rewrite (shows_unique t Hg _ _ _ _ S S'). cbn [q_data]. unfold ztake. rewrite firstn_nil. reflexivity.
  Qed.

  (** Both streams of one object. *)
  Definition both_kept (src : bytes) (rd : bufreader) (wr : bufwriter) (delivered told : bytes) (inorder : Prop) : Prop :=
    exists buffered pending, br_buffer t rd = Ret buffered /\ bw_buffer t wr = Ret pending /\
      delivered ++ buffered ++ rs_src (br_src rd) = src /\
      Permutation told (accepted (bw_sink wr) ++ pending) /\
      (inorder -> told = accepted (bw_sink wr) ++ pending).

  Lemma bw_ok_new cap m script os b told rs : 0 < cap -> 2 * cap < 2 ^ t_bits t -> pos_ok t cap (bwops_weight os) -> Forall whonest script ->
    bw_run t (bw_from_parts (fresh_sink script) (ring_make cap m)) os = (b, told, rs) -> bw_ok t cap [] (ring_make cap m) script os b told rs.
  Proof.
    intros Hc Hw Hp Hh E. left. split; [|split; [exact Hp|split; [exact Hh|exact E]]].
    split; [exact Hc|]. split; [exact Hw|]. split; [exact I|]. exists m, []. reflexivity.
  Qed.
  Lemma both_claim capr mr capw mw src script wscript ros wos rd rxs wr wxs :
    0 < capr -> 2 * capr < 2 ^ t_bits t -> pos_ok t capr (zlen src) -> Forall honest script -> Forall (brop_ok t) ros ->
    0 < capw -> 2 * capw < 2 ^ t_bits t -> pos_ok t capw (bwops_weight wos) -> Forall whonest wscript ->
    trace (br_step t) (br_new (fresh_source src script) capr mr) ros = (rd, rxs) ->
    trace (bw_step t) (bw_from_parts (fresh_sink wscript) (ring_make capw mw)) wos = (wr, wxs) ->
    both_kept src rd wr (moved_by rxs) (moved_by wxs) (never_fits t (bw_from_parts (fresh_sink wscript) (ring_make capw mw)) wos).
  Proof.
    intros Hcr Hwr Hpr Hhr Hor Hcw Hww Hpw Hhw Er Ew. apply trace_br in Er. apply trace_bw in Ew.
    assert (R : br_reached t capr src script ros rd (moved_by rxs) (results_of rxs)) by (repeat split; try assumption; try apply Hpr; exists mr; exact Er).
    destruct (stream_claim t Hg _ _ _ _ _ _ _ R) as (_ & _ & buffered & EB & S).
    pose proof (bw_ok_new _ _ _ _ _ _ _ Hcw Hww Hpw Hhw Ew) as W.
    destruct (conserve_claim t Hg _ _ _ _ _ _ _ _ W) as (_ & _ & data0 & data & E0 & E1 & P & Ord).
    rewrite make_empty in E0 by assumption. injection E0 as <-. exists buffered, data. auto.
  Qed.

  (** ** From one peer to the other *)
  Lemma trace_app {V O} (step : V -> O -> V * bytes * out io_error unit) : forall os1 os2 v v' xs,
    trace step v (os1 ++ os2) = (v', xs) -> Forall (fun c => snd (snd c) = Ret tt) xs ->
    exists v1 xs1 xs2, trace step v os1 = (v1, xs1) /\ trace step v1 os2 = (v', xs2) /\ xs = xs1 ++ xs2.
  Proof.
    induction os1 as [|o os1 IH]; intros os2 v v' xs E F; cbn [app trace] in *.
    - exists v, [], xs. auto.
    - destruct (step v o) as [[v1 d] r]. destruct r as [u|e| | |].
      4,5: injection E as <- <-; inversion F as [|? ? F1 F2]; subst; discriminate F1.
      all: destruct (trace step v1 (os1 ++ os2)) as [v2 ys] eqn:E2; injection E as <- <-; inversion F as [|? ? F1 F2]; subst;
        destruct (IH _ _ _ _ E2 F2) as (w & xs1 & xs2 & A & B & ->); rewrite A; exists w; eexists; exists xs2; split; [reflexivity|]; split; [exact B|reflexivity].
  Qed.

  Lemma write_all_told fuel : forall b buf told b' d, bw_write_all_loop t fuel b buf told = (b', d, Ret tt) -> d = told ++ buf.
  Proof.
    induction fuel as [|f IH]; intros b buf told b' d E; destruct buf as [|x buf]; cbn [bw_write_all_loop] in E.
    1,3: injection E as _ <-; rewrite app_nil_r; reflexivity.
    - discriminate E.
    - destruct (bw_write t b (x :: buf)) as [b1 [n|e| | |]]; try discriminate E.
      + destruct (n =? 0); [discriminate E|]. destruct (zlen (x :: buf) <? n); [discriminate E|]. rewrite (IH _ _ _ _ _ E), <- app_assoc, ztake_zdrop. reflexivity.
      + destruct (io_kind_of e); try discriminate E. exact (IH _ _ _ _ _ E).
  Qed.
  Lemma writes_told : forall ms b b' xs, trace (bw_step t) b (map WWriteAll ms) = (b', xs) -> Forall (fun c => snd (snd c) = Ret tt) xs -> moved_by xs = concat ms.
  Proof.
    induction ms as [|m ms IH]; intros b b' xs E F; cbn [map trace] in E; [injection E as <- <-; reflexivity|].
    destruct (bw_step t b (WWriteAll m)) as [[b1 d] r] eqn:E1. destruct r as [[]|e| | |].
    4,5: injection E as <- <-; inversion F as [|? ? F1 F2]; subst; discriminate F1.
    2,3: destruct (trace (bw_step t) b1 (map WWriteAll ms)) as [b2 ys]; injection E as <- <-; inversion F as [|? ? F1 F2]; subst; discriminate F1.
    destruct (trace (bw_step t) b1 (map WWriteAll ms)) as [b2 ys] eqn:E2. injection E as <- <-. inversion F as [|? ? F1 F2]; subst.
    unfold moved_by. cbn [map concat fst snd]. fold (moved_by ys). rewrite (IH _ _ _ E2 F2). f_equal.
    cbn [bw_step] in E1. unfold bw_write_all in E1. apply write_all_told in E1. exact E1.
  Qed.

  (** Everything flushed: the sink has the messages, in order. *)
  Lemma sent capw mw wscript ms b xs : 0 < capw -> 2 * capw < 2 ^ t_bits t -> pos_ok t capw (zlen (concat ms)) -> Forall whonest wscript ->
    never_fits t (bw_from_parts (fresh_sink wscript) (ring_make capw mw)) (map WWriteAll ms) ->
    trace (bw_step t) (bw_from_parts (fresh_sink wscript) (ring_make capw mw)) (map WWriteAll ms ++ [WFlush]) = (b, xs) ->
    Forall (fun c => snd (snd c) = Ret tt) xs ->
    accepted (bw_sink b) = concat ms.
  Proof.
    intros Hc Hw Hp Hh N E F. destruct (trace_app _ _ _ _ _ _ E F) as (b1 & xs1 & xs2 & E1 & E2 & ->). apply Forall_app in F. destruct F as [F1 F2].
    pose proof (writes_told _ _ _ _ E1 F1) as Told. apply trace_bw in E1.
    assert (Wt : bwops_weight (map WWriteAll ms) = zlen (concat ms)).
    { clear. unfold bwops_weight. induction ms as [|m ms IH]; [reflexivity|]. cbn [map fold_right bwop_weight concat]. rewrite zlen_app, IH. reflexivity. }
    pose proof (bw_ok_new _ _ _ _ _ _ _ Hc Hw ltac:(rewrite Wt; exact Hp) Hh E1) as W.
    destruct (conserve_claim t Hg _ _ _ _ _ _ _ _ W) as (_ & _ & data0 & data & E0 & EB & _ & Ord). rewrite make_empty in E0 by assumption. injection E0 as <-. specialize (Ord N). cbn [app] in Ord.
    cbn [trace bw_step] in E2. destruct (bw_flush t b1) as [b2 r] eqn:Ef. destruct (flush_claim t Hg _ _ _ _ _ _ _ _ _ _ W Ef) as (d1 & d2 & EB1 & EB2 & Acc & M).
    rewrite EB in EB1. injection EB1 as <-.
    assert (r = Ret tt /\ b = b2).
    { destruct r as [[]|e| | |]; injection E2 as <- <-; inversion F2 as [|? ? F3 F4]; subst; try discriminate F3. auto. }
    destruct H as [-> ->]. destruct M as (-> & _). rewrite app_nil_r in Acc. congruence.
  Qed.

  Section Receive.
    Variables (cap : Z) (src : bytes).
    Hypothesis Hc : 0 < cap.
    Hypothesis Hw : 2 * cap < 2 ^ t_bits t.
    Hypothesis Hp : pos_ok t cap (zlen src).
    Notation bi := (bi t cap src).

    Lemma bi_split b out data free : bi b out data free -> out ++ data ++ rs_src (br_src b) = src.
    Proof. intros (T & R & _ & _ & _ & _ & _ & _ & Hx). exact Hx. Qed.
    Lemma flowed_lasting s s' : flowed s s' -> Forall lasting (rs_script s) -> Forall lasting (rs_script s').
    Proof. intros (u & E & _) F. rewrite E in F. apply Forall_app in F. apply F. Qed.
    Lemma until_line b out data free c m rest b' d : bi b out data free -> Forall lasting (rs_script (br_src b)) ->
      data ++ rs_src (br_src b) = (m ++ [c]) ++ rest -> ~ In c m -> br_step t b (BUntil c) = (b', d, Ret tt) ->
      d = m ++ [c] /\ exists data' free', bi b' (out ++ d) data' free' /\ data' ++ rs_src (br_src b') = rest /\ Forall lasting (rs_script (br_src b')).
    Proof.
      intros B L Hs Hm E. cbn [br_step] in E. unfold br_read_until in E. pose proof B as B0. rewrite <- (app_nil_r out) in B0.
      destruct (until_spec t Hbits cap Hc Hw src Hp (2 * length (rs_script (br_src b)) + 3) b c out [] data free B0) as (b1 & acc1 & data1 & free1 & r1 & E1 & B1 & _ & M); [intros []|].
      pose proof (until_why t Hbits cap Hc Hw src Hp _ _ _ _ _ _ _ _ _ _ B0 (fun x : In c [] => x) E1) as Y.
      rewrite E1 in E. injection E as -> -> ->. destruct Y as (Y1 & Y2).
      pose proof (bi_split _ _ _ _ B) as S0. pose proof (bi_split _ _ _ _ B1) as S1. rewrite <- S0 in S1. rewrite <- app_assoc in S1. apply app_inv_head in S1.
      rewrite Hs in S1.
      destruct M as [(l & -> & Hl)|(Hd & -> & _)].
      - assert (l = m /\ data1 ++ rs_src (br_src b') = rest) as [-> <-].
        { rewrite <- !app_assoc in S1. cbn [app] in S1. clear -S1 Hl Hm. revert m S1 Hm. induction l as [|x l IH]; intros [|y m] S1 Hm; cbn [app] in S1.
          - injection S1 as S1. auto.
          - injection S1 as -> _. exfalso. apply Hm. left. reflexivity.
          - injection S1 as -> _. exfalso. apply Hl. left. reflexivity.
          - injection S1 as -> S1. destruct (IH (fun h => Hl (or_intror h)) m S1 (fun h => Hm (or_intror h))) as [-> E]. auto. }
        split; [reflexivity|]. exists data1, free1. split; [exact B1|]. split; [reflexivity|]. exact (flowed_lasting _ _ Y1 L).
      - exfalso. destruct (Y2 Hd) as (u & k & Es & _ & [K|K]).
        + rewrite Es in L. apply Forall_app in L. destruct L as [_ L]. inversion L as [|? ? L1 _]; subst. cbn [lasting] in L1. lia.
        + rewrite K, !app_nil_r in S1. apply Hd. rewrite S1. apply in_or_app. left. apply in_or_app. right. left. reflexivity.
    Qed.
    Lemma exact_frame b out data free m rest b' d : bi b out data free ->
      data ++ rs_src (br_src b) = m ++ rest -> br_step t b (BExact (zlen m)) = (b', d, Ret tt) ->
      d = m /\ exists data' free', bi b' (out ++ d) data' free' /\ data' ++ rs_src (br_src b') = rest.
    Proof.
      intros B Hs E. cbn [br_step] in E. unfold br_read_exact in E. pose proof B as B0. rewrite <- (app_nil_r out) in B0.
      destruct (exact_spec t Hbits cap Hc Hw src Hp (Z.to_nat (zlen m) + length (rs_script (br_src b)) + 1) b (zlen m) out [] data free B0 (zlen_nonneg m)) as (b1 & acc1 & data1 & free1 & r1 & E1 & B1 & _ & M).
      rewrite E1 in E. cbn [app] in E, B1. injection E as -> -> ->.
      pose proof (bi_split _ _ _ _ B) as S0. pose proof (bi_split _ _ _ _ B1) as S1. rewrite <- S0 in S1. rewrite <- app_assoc in S1. apply app_inv_head in S1. rewrite Hs in S1.
      assert (L : length d = length m) by (unfold zlen in M; lia).
      assert (Q : d = m /\ data1 ++ rs_src (br_src b') = rest).
      { clear -S1 L. revert m L S1. induction d as [|x d IH]; intros [|y m] L S1; cbn [length app] in *; try discriminate L; [auto|].
        injection S1 as -> S1. injection L as L. destruct (IH _ L S1) as [-> E]. auto. }
      destruct Q as [-> Q]. split; [reflexivity|]. exists data1, free1. auto.
    Qed.
    Lemma lines_claim c : forall ms b out data free rest b' xs, bi b out data free -> Forall lasting (rs_script (br_src b)) ->
      data ++ rs_src (br_src b) = concat (map (fun m => m ++ [c]) ms) ++ rest -> Forall (fun m => ~ In c m) ms ->
      trace (br_step t) b (map (fun _ => BUntil c) ms) = (b', xs) -> Forall (fun x => snd (snd x) = Ret tt) xs ->
      map (fun x => fst (snd x)) xs = map (fun m => m ++ [c]) ms.
    Proof.
      induction ms as [|m ms IH]; intros b out data free rest b' xs B L Hs Hm E F; cbn [map trace] in E; [injection E as <- <-; reflexivity|].
      inversion Hm as [|? ? Hm1 Hm2]; subst. cbn [map concat] in Hs. rewrite <- app_assoc in Hs.
      destruct (br_step t b (BUntil c)) as [[b1 d] r] eqn:E1. destruct r as [[]|e| | |].
      4,5: injection E as <- <-; inversion F as [|? ? F1 F2]; subst; discriminate F1.
      2,3: destruct (trace (br_step t) b1 (map (fun _ => BUntil c) ms)) as [b2 ys]; injection E as <- <-; inversion F as [|? ? F1 F2]; subst; discriminate F1.
      destruct (trace (br_step t) b1 (map (fun _ => BUntil c) ms)) as [b2 ys] eqn:E2. injection E as <- <-. inversion F as [|? ? F1 F2]; subst.
      destruct (until_line _ _ _ _ _ _ _ _ _ B L Hs Hm1 E1) as (-> & data' & free' & B' & S' & L'). cbn [map fst snd]. f_equal.
      exact (IH _ _ _ _ _ _ _ B' L' S' Hm2 E2 F2).
    Qed.
    Lemma frames_claim : forall ms b out data free rest b' xs, bi b out data free ->
      data ++ rs_src (br_src b) = concat ms ++ rest ->
      trace (br_step t) b (map (fun m => BExact (zlen m)) ms) = (b', xs) -> Forall (fun x => snd (snd x) = Ret tt) xs ->
      map (fun x => fst (snd x)) xs = ms.
    Proof.
      induction ms as [|m ms IH]; intros b out data free rest b' xs B Hs E F; cbn [map trace] in E; [injection E as <- <-; reflexivity|].
      cbn [concat] in Hs. rewrite <- app_assoc in Hs.
      destruct (br_step t b (BExact (zlen m))) as [[b1 d] r] eqn:E1. destruct r as [[]|e| | |].
      4,5: injection E as <- <-; inversion F as [|? ? F1 F2]; subst; discriminate F1.
      2,3: destruct (trace (br_step t) b1 (map (fun m => BExact (zlen m)) ms)) as [b2 ys]; injection E as <- <-; inversion F as [|? ? F1 F2]; subst; discriminate F1.
      destruct (trace (br_step t) b1 (map (fun m => BExact (zlen m)) ms)) as [b2 ys] eqn:E2. injection E as <- <-. inversion F as [|? ? F1 F2]; subst.
      destruct (exact_frame _ _ _ _ _ _ _ _ B Hs E1) as (-> & data' & free' & B' & S'). cbn [map fst snd]. f_equal.
      exact (IH _ _ _ _ _ _ _ B' S' E2 F2).
    Qed.
    Lemma new_bi m script : Forall honest script -> exists free, bi (br_new (fresh_source src script) cap m) [] [] free.
    Proof. intro Hh. eexists. exact (br_new_bi t Hbits cap Hc Hw src script m [] Hh). Qed.
  End Receive.
End H.
