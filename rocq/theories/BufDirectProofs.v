(** Proofs about direct use of the inner object. *)
From Coq Require Import Lia Permutation.
From Verif Require Import Base ErrorModel RingSpec RingModel SizeProofs SeqProofs RingTheorems RingClaims BufSpec BufModel BufReaderProofs BufWriterProofs
  BufDirectModel BufDirectSpec.

Lemma suffix_of {A} (a b c d : list A) : a ++ b = c ++ d -> (length d <= length b)%nat -> exists x, b = x ++ d /\ c = a ++ x.
Proof.
  revert c. induction a as [|y a IH]; intros c H L; cbn in H.
  - exists c. auto.
  - destruct c as [|z c]; cbn in H.
    + exfalso. subst d. cbn in L. rewrite app_length in L. lia.
    + injection H as -> H. destruct (IH c H L) as (x & -> & ->). exists x. auto.
Qed.
Lemma pick_nil {O A} (p : O -> bool) os : pick (A:=A) p os [] = [].
Proof. destruct os; reflexivity. Qed.

Lemma ztake_len {A} k (l : list A) : ztake (zlen (ztake k l)) l = ztake k l.
Proof. rewrite <- (ztake_zdrop k l) at 2. rewrite ztake_app_l by lia. apply ztake_all. lia. Qed.

Section Direct.
  Variable t : target.
  Hypothesis Hbits : 32 <= t_bits t <= 64.
  Variable cap : Z.
  Hypothesis Hcap : 0 < cap.
  Hypothesis Hword : 2 * cap < 2 ^ t_bits t.

  (** ** Relations a call keeps *)
  Section Keeps.
    Context {St : Type}.
    Variable Rl : St -> St -> Prop.
    Lemma sbind_rel {A B} (s0 : St) (x : St * out io_error A) (f : St -> A -> St * out io_error B) :
      Rl s0 (fst x) -> (forall s a, Rl s0 s -> Rl s0 (fst (f s a))) -> Rl s0 (fst (sbind x f)).
    Proof. destruct x as [s [a|e| | |]]; cbn; auto. Qed.
  End Keeps.

  (** ** Reader: the source only gets shorter *)
  Definition shorter (b b' : bufreader) : Prop := (length (rs_src (br_src b')) <= length (rs_src (br_src b)))%nat.
  Lemma shorter_refl b : shorter b b.
  Proof. unfold shorter. lia. Qed.
  Lemma shorter_trans a b c : shorter a b -> shorter b c -> shorter a c.
  Proof. unfold shorter. lia. Qed.
  Lemma src_shorter n s s' d r : src_read n s = (s', d, r) -> (length (rs_src s') <= length (rs_src s))%nat.
  Proof.
    unfold src_read. destruct (rs_script s) as [|a rest]; [intros [= <- _ _]; lia|].
    destruct a as [k|x k|x e|x]; intros [= <- _ _]; cbn [rs_src]; try lia.
    unfold zdrop. rewrite skipn_length. lia.
  Qed.
  Lemma on_ring_shorter {A} b0 b (x : out io_error A) f : (forall a, br_src (f a) = br_src b) -> shorter b0 b -> shorter b0 (fst (on_ring b x f)).
  Proof. intros H S1. destruct x; cbn; auto. unfold shorter in *. rewrite H. exact S1. Qed.
  Lemma fill_shorter b : shorter b (fst (br_fill_buf t b)).
  Proof.
    unfold br_fill_buf. apply (sbind_rel shorter b); [apply shorter_refl|]. intros b1 rl H1. apply (sbind_rel shorter b); [|intros b2 _ H2; exact H2].
    destruct (rl <=? br_lowat b1); [|exact H1]. apply (sbind_rel shorter b); [exact H1|]. intros b2 w H2.
    destruct (src_read (zlen w) (br_src b2)) as [[s' d] res] eqn:E. apply src_shorter in E.
    assert (H3 : shorter b (br_with_src b2 s')) by (unfold shorter in *; cbn; lia). apply (sbind_rel shorter b).
    - apply on_ring_shorter; [reflexivity|exact H3].
    - intros b3 _ H4. apply (sbind_rel shorter b); [exact H4|]. intros b4 n H5. apply on_ring_shorter; [reflexivity|exact H5].
  Qed.
  Lemma consume_shorter b n : shorter b (fst (br_consume t b n)).
  Proof. apply on_ring_shorter; [reflexivity|apply shorter_refl]. Qed.
  Lemma read_shorter b n : shorter b (fst (fst (br_read t b n))).
  Proof.
    unfold br_read. destruct (sbind _ _) as [b1 r1] eqn:E.
    assert (M1 : shorter b b1).
    { change b1 with (fst (b1, r1)). rewrite <- E. apply (sbind_rel shorter b); [apply shorter_refl|]. intros b2 a H. exact H. }
    destruct r1 as [[|]|e| | |]; try exact M1.
    - destruct (src_read n (br_src b1)) as [[s' d] res] eqn:Es. apply src_shorter in Es. unfold shorter in *. cbn. lia.
    - pose proof (fill_shorter b1) as F. destruct (br_fill_buf t b1) as [b2 r2]. cbn [fst] in F. pose proof (shorter_trans _ _ _ M1 F) as M2.
      destruct r2 as [avail|e| | |]; try exact M2.
      pose proof (consume_shorter b2 (zlen (ztake n avail))) as C. destruct (br_consume t b2 (zlen (ztake n avail))) as [b3 r3]. cbn [fst] in C.
      pose proof (shorter_trans _ _ _ M2 C) as M3. destruct r3 as [[]|e| | |]; exact M3.
  Qed.
  Lemma until_shorter fuel : forall b c acc, shorter b (fst (fst (br_until_loop t fuel b c acc))).
  Proof.
    induction fuel as [|f IH]; intros b c acc; [apply shorter_refl|]. cbn [br_until_loop].
    pose proof (fill_shorter b) as F. destruct (br_fill_buf t b) as [b1 r1]. cbn [fst] in F. destruct r1 as [avail|e| | |]; try exact F.
    - destruct (find_byte c avail) as [k|].
      + pose proof (consume_shorter b1 (k + 1)) as C. destruct (br_consume t b1 (k + 1)) as [b2 r2]. exact (shorter_trans _ _ _ F C).
      + pose proof (consume_shorter b1 (zlen avail)) as C. destruct (br_consume t b1 (zlen avail)) as [b2 r2]. cbn [fst] in C.
        pose proof (shorter_trans _ _ _ F C) as M.
        destruct r2 as [[]|e| | |]; [|exact M..]. destruct (zlen avail =? 0); [exact M|]. eapply shorter_trans; [exact M|apply IH].
    - destruct (io_kind_of e); try exact F. eapply shorter_trans; [exact F|apply IH].
  Qed.
  Lemma exact_shorter fuel : forall b n acc, shorter b (fst (fst (br_exact_loop t fuel b n acc))).
  Proof.
    induction fuel as [|f IH]; intros b n acc; cbn [br_exact_loop]; (destruct (n <=? 0); [apply shorter_refl|]); [apply shorter_refl|].
    pose proof (read_shorter b n) as F. destruct (br_read t b n) as [[b1 d] r1]. cbn [fst] in F. destruct r1 as [k|e| | |]; try exact F.
    - destruct (k =? 0); [exact F|]. destruct (n <? k); [exact F|]. eapply shorter_trans; [exact F|apply IH].
    - destruct (io_kind_of e); try exact F. eapply shorter_trans; [exact F|apply IH].
  Qed.
  Lemma step_shorter b o : shorter b (fst (fst (br_step t b o))).
  Proof.
    destruct o as [n| |n|n|c|n]; cbn [br_step].
    - pose proof (read_shorter b n) as F. destruct (br_read t b n) as [[b1 d] r]. exact F.
    - pose proof (fill_shorter b) as F. destruct (br_fill_buf t b) as [b1 r]. exact F.
    - pose proof (consume_shorter b n) as F. destruct (br_consume t b n) as [b1 r]. exact F.
    - exact (shorter_refl b).
    - apply until_shorter.
    - apply exact_shorter.
  Qed.

  (** The invariant of C44 for the part of the stream that went through the
      buffer: whatever was taken out of the source directly is cut out. *)
  Lemma bi_cut src0 b out data free s d : bi t cap src0 b out data free -> rs_src (br_src b) = d ++ rs_src s -> Forall honest (rs_script s) ->
    bi t cap (out ++ data ++ rs_src s) (br_with_src b s) out data free.
  Proof.
    intros (T & R & I & A & HT & L & Lw & _ & E) Ed Hh. exists T, R. cbn [br_with_src br_ring br_src br_lowat].
    split; [exact I|]. split; [exact A|]. split; [|auto]. rewrite <- E, !zlen_app in HT. rewrite !zlen_app. lia.
  Qed.
  Lemma dr_run_law os : forall src0 b out data free, bi t cap src0 b out data free -> pos_ok t cap (zlen src0) -> Forall (rcall_ok t) os ->
    exists b' outs rs data' free' src' out', dr_run t b os = (b', outs, rs) /\ bi t cap src' b' out' data' free' /\ zlen src' <= zlen src0 /\ Forall (fun r => r <> Fault) rs /\
      exists segs, length segs = length outs /\ rs_src (br_src b) = concat segs ++ rs_src (br_src b') /\
        pick direct_r os segs = pick direct_r os outs /\
        data ++ concat (pick (fun o => negb (direct_r o)) os segs) = concat (pick (fun o => negb (direct_r o)) os outs) ++ data' /\
        (settled_r t b os -> data ++ concat segs = concat outs ++ data').
  Proof.
    induction os as [|o os IH]; intros src0 b out data free H Hp F.
    - exists b, [], [], data, free, src0, out. split; [reflexivity|]. split; [exact H|]. split; [lia|]. split; [constructor|]. exists []. cbn. rewrite app_nil_r. auto 6.
    - apply Forall_cons_iff in F as [Fo F]. cbn [dr_run].
      assert (Step : exists b1 d r data1 free1 src1 out1 x, dr_step t b o = (b1, d, r) /\ bi t cap src1 b1 out1 data1 free1 /\ (pos_ok t cap (zlen src1) /\ zlen src1 <= zlen src0) /\ r <> Fault /\
        rs_src (br_src b) = x ++ rs_src (br_src b1) /\ (if direct_r o then x = d /\ data1 = data else data ++ x = d ++ data1)).
      { destruct o as [o|n]; cbn [dr_step direct_r rcall_ok] in *.
        - destruct (br_step_spec t Hbits cap Hcap Hword src0 Hp b o out data free H Fo) as (b1 & d & data1 & free1 & r & E & H1 & M).
          pose proof (step_shorter b o) as S1. rewrite E in S1. cbn [fst] in S1.
          destruct H as (T & R & _ & _ & _ & _ & _ & _ & Es). pose proof H1 as (T1 & R1 & _ & _ & _ & _ & _ & _ & Es1).
          rewrite <- Es, <- app_assoc in Es1. apply app_inv_head in Es1. symmetry in Es1. rewrite (app_assoc d) in Es1.
          destruct (suffix_of _ _ _ _ Es1 S1) as (x & X1 & X2).
          exists b1, d, r, data1, free1, src0, (out ++ d), x. split; [exact E|]. split; [exact H1|]. split; [split; [exact Hp|lia]|].
          split; [intros ->; exact M|]. auto.
        - destruct (src_read n (br_src b)) as [[s d] r] eqn:E. pose proof H as (T & R & _ & _ & _ & _ & _ & Hh & Es).
          destruct Fo as [Fo _]. destruct (src_read_spec n _ _ _ _ Fo Hh E) as (Hh' & Ld & C).
          assert (X : exists x, rs_src (br_src b) = x ++ rs_src s /\ x = match r with Ret k => ztake k d | _ => [] end /\ r <> Fault).
          { destruct C as [(_ & -> & _ & ->)|(a & _ & _ & [(k & _ & Q & -> & _)|[(x & e & _ & Q & ->)|(x & _ & Q & ->)]])].
            - exists []. split; [reflexivity|]. split; [reflexivity|discriminate].
            - exists d. split; [exact Q|]. split; [rewrite ztake_all by lia; reflexivity|discriminate].
            - exists []. split; [symmetry; exact Q|]. split; [reflexivity|discriminate].
            - exists []. split; [symmetry; exact Q|]. split; [reflexivity|discriminate]. }
          destruct X as (x & X1 & X2 & X3).
          exists (br_with_src b s), (match r with Ret k => ztake k d | _ => [] end), (obind r (fun _ => Ret tt)), data, free, (out ++ data ++ rs_src s), out, x.
          split; [reflexivity|]. split; [exact (bi_cut _ _ _ _ _ _ _ H X1 Hh')|].
          assert (Le : zlen (out ++ data ++ rs_src s) <= zlen src0) by (rewrite <- Es, X1, !zlen_app; pose proof (zlen_nonneg x); lia).
          split; [split; [apply (pos_ok_mono t cap _ _ Hp), Le|exact Le]|].
          split; [destruct r; cbn; congruence|]. split; [exact X1|]. split; [exact X2|reflexivity]. }
      destruct Step as (b1 & d & r & data1 & free1 & src1 & out1 & x & E & H1 & [Hp1 Le1] & Nf & X & Law). rewrite E.
      assert (One : forall segs outs data', length segs = length outs ->
        pick direct_r os segs = pick direct_r os outs ->
        data1 ++ concat (pick (fun o => negb (direct_r o)) os segs) = concat (pick (fun o => negb (direct_r o)) os outs) ++ data' ->
        length (x :: segs) = length (d :: outs) /\ pick direct_r (o :: os) (x :: segs) = pick direct_r (o :: os) (d :: outs) /\
        data ++ concat (pick (fun o => negb (direct_r o)) (o :: os) (x :: segs)) = concat (pick (fun o => negb (direct_r o)) (o :: os) (d :: outs)) ++ data').
      { intros segs outs data' A1 A2 A3. split; [apply (f_equal S) in A1; exact A1|]. cbn [pick]. destruct (direct_r o); cbn [negb].
        - destruct Law as [-> ->]. rewrite A2. auto.
        - split; [exact A2|]. cbn [concat]. rewrite app_assoc, Law, <- !app_assoc, A3. reflexivity. }
      assert (Set1 : settled_r t b (o :: os) -> (data ++ x = d ++ data1) /\ settled_r t b1 os).
      { cbn [settled_r]. rewrite E. cbn [fst]. intros [S1 S2]. split; [|exact S2]. destruct (direct_r o); [|exact Law].
        destruct Law as [-> ->]. destruct (bi_ring t Hbits cap Hcap Hword src0 _ _ _ _ H) as (_ & _ & Q). rewrite S1 in Q by reflexivity.
        injection Q as <-. symmetry. apply app_nil_r. }
      assert (All : forall segs outs data', (settled_r t b1 os -> data1 ++ concat segs = concat outs ++ data') ->
        settled_r t b (o :: os) -> data ++ concat (x :: segs) = concat (d :: outs) ++ data').
      { intros segs outs data' Q S0. destruct (Set1 S0) as [S1 S2]. cbn [concat]. rewrite app_assoc, S1, <- !app_assoc, (Q S2). reflexivity. }
      destruct r as [u|e| | |]; try congruence.
      4:{ exists b1, [d], [Blocked], data1, free1, src1, out1. split; [reflexivity|]. split; [exact H1|]. split; [exact Le1|]. split; [repeat constructor; discriminate|].
          destruct (One [] [] data1 eq_refl) as (A1 & A2 & A3); [rewrite !pick_nil; reflexivity|rewrite !pick_nil; cbn; apply app_nil_r|].
          exists [x]. split; [exact A1|]. split; [cbn; rewrite app_nil_r; exact X|]. split; [exact A2|]. split; [exact A3|].
          apply (All [] []). intros _. cbn. apply app_nil_r. }
      all: destruct (IH src1 b1 out1 data1 free1 H1 Hp1 F) as (b' & outs & rs & data' & free' & src' & out' & E2 & H2 & L2 & F2 & segs & A1 & A2 & A3 & A4 & A5);
        rewrite E2; exists b', (d :: outs); eexists; exists data', free', src', out'; (split; [reflexivity|]); (split; [exact H2|]); (split; [lia|]);
        (split; [constructor; [discriminate|exact F2]|]); destruct (One segs outs data' A1 A3 A4) as (B1 & B2 & B3); exists (x :: segs);
        (split; [exact B1|]); (split; [cbn [concat]; rewrite X, A2, app_assoc; reflexivity|]); (split; [exact B2|]); (split; [exact B3|exact (All _ _ _ A5)]).
  Qed.
  Theorem taken_law src script m os b outs rs : pos_ok t cap (zlen src) -> Forall honest script -> Forall (rcall_ok t) os ->
    dr_run t (br_new {| rs_src := src; rs_script := script; rs_asked := [] |} cap m) os = (b, outs, rs) ->
    Forall (fun r => r <> Fault) rs /\ exists buffered, br_buffer t b = Ret buffered /\ taken_in_turn src os outs buffered (rs_src (br_src b)) /\
      (settled_r t (br_new {| rs_src := src; rs_script := script; rs_asked := [] |} cap m) os -> src = concat outs ++ buffered ++ rs_src (br_src b)).
  Proof.
    intros Hp Hh F E. destruct (dr_run_law os src _ _ _ _ (br_new_bi t Hbits cap Hcap Hword src script m [] Hh) Hp F)
      as (b' & outs' & rs' & data' & free' & src' & out' & E' & H' & _ & F' & segs & A1 & A2 & A3 & A4 & A5).
    rewrite E in E'. injection E' as <- <- <-. split; [exact F'|]. exists data'. split.
    - destruct (bi_ring t Hbits cap Hcap Hword src' _ _ _ _ H') as (_ & _ & Q). exact Q.
    - cbn [br_new br_src rs_src app] in *. split; [exists segs; auto|]. intros S0. rewrite app_assoc, <- (A5 S0). exact A2.
  Qed.

  (** ** Writer: what was accepted stays accepted *)
  Definition longer (b b' : bufwriter) : Prop := exists x, accepted (bw_sink b') = accepted (bw_sink b) ++ x.
  Lemma longer_refl b : longer b b.
  Proof. exists []. symmetry. apply app_nil_r. Qed.
  Lemma longer_trans a b c : longer a b -> longer b c -> longer a c.
  Proof. intros [x X] [y Y]. exists (x ++ y). rewrite Y, X, app_assoc. reflexivity. Qed.
  Lemma longer_same b0 b b' : bw_sink b' = bw_sink b -> longer b0 b -> longer b0 b'.
  Proof. unfold longer. intros ->. auto. Qed.
  Lemma sink_write_log buf s s' r : sink_write buf s = (s', r) -> exists evs, ws_log s' = ws_log s ++ evs.
  Proof.
    unfold sink_write. destruct (ws_script s) as [|a rest]; [intros [= <- _]; exists []; symmetry; apply app_nil_r|].
    destruct a; intros [= <- _]; eexists; reflexivity.
  Qed.
  Lemma sink_flush_log s s' r : sink_flush s = (s', r) -> exists evs, ws_log s' = ws_log s ++ evs.
  Proof.
    unfold sink_flush. destruct (ws_script s) as [|a rest]; [intros [= <- _]; exists []; symmetry; apply app_nil_r|].
    destruct a; intros [= <- _]; eexists; reflexivity.
  Qed.
  Lemma inner_longer b buf : longer b (fst (bw_inner_write b buf)).
  Proof.
    unfold bw_inner_write. destruct (sink_write buf (bw_sink b)) as [s r] eqn:E. destruct (sink_write_log _ _ _ _ E) as [evs L].
    exists (flat_map event_bytes evs). exact (accepted_app _ _ _ L).
  Qed.
  Lemma flush_loop_longer fuel : forall b, longer b (fst (bw_flush_loop t fuel b)).
  Proof.
    induction fuel as [|f IH]; intros b; [apply longer_refl|]. cbn [bw_flush_loop].
    apply (sbind_rel longer b); [apply longer_refl|]. intros b1 e H1. destruct e; [exact H1|].
    apply (sbind_rel longer b); [exact H1|]. intros b2 data H2.
    pose proof (inner_longer b2 data) as N. destruct (bw_inner_write b2 data) as [b3 r]. cbn [fst] in N. pose proof (longer_trans _ _ _ H2 N) as H3.
    destruct r as [n|e| | |]; try exact H3.
    - destruct (n =? 0); [exact H3|]. destruct (ring_consume t (bw_ring b3) n) as [r'|e| | |]; try exact H3.
      eapply longer_trans; [exact H3|]. eapply longer_trans; [|apply IH]. apply (longer_same _ b3); [reflexivity|apply longer_refl].
    - destruct (io_kind_of e); try exact H3. eapply longer_trans; [exact H3|apply IH].
  Qed.
  Lemma write_longer b buf : longer b (fst (bw_write t b buf)).
  Proof.
    unfold bw_write. apply (sbind_rel longer b); [apply longer_refl|]. intros b1 wl H1. apply (sbind_rel longer b).
    - destruct (wl <? zlen buf); [|exact H1]. eapply longer_trans; [exact H1|apply flush_loop_longer].
    - intros b2 _ H2. apply (sbind_rel longer b); [exact H2|]. intros b3 wl' H3. destruct (wl' <=? zlen buf).
      + eapply longer_trans; [exact H3|apply inner_longer].
      + destruct (ring_write t (bw_ring b3) buf) as [[r' n]|e| | |]; exact H3.
  Qed.
  Lemma write_all_longer fuel : forall b buf tl, longer b (fst (fst (bw_write_all_loop t fuel b buf tl))).
  Proof.
    induction fuel as [|f IH]; intros b buf tl; (destruct buf as [|c buf]; [apply longer_refl|]); cbn [bw_write_all_loop]; [apply longer_refl|].
    pose proof (write_longer b (c :: buf)) as N. destruct (bw_write t b (c :: buf)) as [b1 r]. cbn [fst] in N.
    destruct r as [n|e| | |]; try exact N.
    - destruct (n =? 0); [exact N|]. destruct (zlen (c :: buf) <? n); [exact N|]. eapply longer_trans; [exact N|apply IH].
    - destruct (io_kind_of e); try exact N. eapply longer_trans; [exact N|apply IH].
  Qed.
  Lemma bw_flush_longer b : longer b (fst (bw_flush t b)).
  Proof.
    unfold bw_flush. apply (sbind_rel longer b); [apply flush_loop_longer|]. intros b1 _ H1.
    destruct (sink_flush (bw_sink b1)) as [s r] eqn:E. destruct (sink_flush_log _ _ _ E) as [evs L].
    eapply longer_trans; [exact H1|]. exists (flat_map event_bytes evs). exact (accepted_app _ _ _ L).
  Qed.
  Lemma bw_step_longer b o : longer b (fst (fst (bw_step t b o))).
  Proof.
    destruct o as [buf|buf|]; cbn [bw_step].
    - pose proof (write_longer b buf) as N. destruct (bw_write t b buf). exact N.
    - apply write_all_longer.
    - pose proof (bw_flush_longer b) as N. destruct (bw_flush t b). exact N.
  Qed.

  Lemma weight_nonneg o : 0 <= wcall_weight o.
  Proof. destruct o as [[buf|buf|]|buf|]; cbn; try apply zlen_nonneg; lia. Qed.
  Lemma weights_nonneg os : 0 <= wcalls_weight os.
  Proof. induction os as [|o os IH]; cbn; [lia|]. pose proof (weight_nonneg o). fold (wcalls_weight os). lia. Qed.

  Definition thr (os : list wcall) (x : list bytes) : bytes := concat (pick (fun o => negb (direct_w o)) os x).

  Lemma dw_run_law os : forall b data free T, wi t cap b data free T -> room t cap (T + wcalls_weight os) ->
    exists b' outs rs data' free' T', dw_run t b os = (b', outs, rs) /\ wi t cap b' data' free' T' /\ T' <= T + wcalls_weight os /\ Forall (fun r => r <> Fault) rs /\
      exists segs, length segs = length outs /\ accepted (bw_sink b') = accepted (bw_sink b) ++ concat segs /\
        pick direct_w os segs = pick direct_w os outs /\
        Permutation (data ++ thr os outs) (thr os segs ++ data') /\
        (no_exact_fit t b os -> data ++ thr os outs = thr os segs ++ data') /\
        (no_exact_fit t b os -> settled_w t b os -> data ++ concat outs = concat segs ++ data').
  Proof.
    unfold thr. induction os as [|o os IH]; intros b data free T H Hp.
    - exists b, [], [], data, free, T. split; [reflexivity|]. split; [exact H|]. split; [cbn; lia|]. split; [constructor|]. exists []. cbn. rewrite !app_nil_r. auto 7.
    - cbn [dw_run]. pose proof (weight_nonneg o) as W0. pose proof (weights_nonneg os) as W1.
      change (wcalls_weight (o :: os)) with (wcall_weight o + wcalls_weight os) in Hp.
      assert (Step : exists b1 d r data1 free1 T1 x, dw_step t b o = (b1, d, r) /\ wi t cap b1 data1 free1 T1 /\ T1 <= T + wcall_weight o /\ r <> Fault /\
        accepted (bw_sink b1) = accepted (bw_sink b) ++ x /\
        (if direct_w o then x = d /\ data1 = data else
           Permutation (data ++ d) (x ++ data1) /\ (no_exact_fit t b (o :: os) -> data ++ d = x ++ data1))).
      { destruct o as [o|buf|]; cbn [dw_step direct_w wcall_weight] in *.
        - destruct (bw_step_spec t Hbits cap Hcap Hword b o data free T H) as (b1 & d & data1 & free1 & T1 & r & E & H1 & HT & Pm & Ord & _ & M).
          { eapply (room_le t Hbits); [exact Hp|lia]. }
          destruct (bw_step_longer b o) as [x X]. rewrite E in X. cbn [fst] in X. rewrite X in Pm, Ord.
          exists b1, d, r, data1, free1, T1, x. split; [exact E|]. split; [exact H1|]. split; [lia|]. split; [intros ->; exact M|]. split; [exact X|].
          rewrite <- app_assoc in Pm. split; [eapply Permutation_app_inv_l; exact Pm|].
          intros [N _]. apply (app_inv_head (accepted (bw_sink b))). rewrite (app_assoc _ x data1), <- Ord.
          + reflexivity.
          + destruct (wi_ring t Hbits cap Hcap Hword _ _ _ _ H) as (_ & _ & _ & EB). rewrite EB in N.
            pose proof (wi_lens t Hbits cap _ _ _ _ H) as HL. destruct H as (R & I & A & L & Hh).
            destruct o as [buf|buf|]; cbn [op_fits]; [| |tauto]; intros (X1 & X2 & X3);
              (destruct (N buf ltac:(auto)) as [N0|[N0|N0]]; [tauto|tauto|]); unfold ring_write_capacity in N0; lia.
        - destruct (sink_write buf (bw_sink b)) as [s r] eqn:E. destruct H as (R & I & A & L & Hh).
          assert (Q : exists x, accepted s = accepted (bw_sink b) ++ x /\ x = match r with Ret n => ztake n buf | _ => [] end /\ r <> Fault /\ Forall whonest (ws_script s)).
          { unfold sink_write in E. destruct (ws_script (bw_sink b)) as [|a rest] eqn:Es.
            - injection E as <- <-. exists []. rewrite app_nil_r, Es. split; [reflexivity|]. split; [reflexivity|]. split; [discriminate|constructor].
            - apply Forall_cons_iff in Hh as [Ha Hr]. destruct a as [k|k|e|]; cbn [whonest] in Ha; try contradiction; injection E as <- <-.
              + exists (ztake k buf). split; [erewrite accepted_app by reflexivity; cbn; rewrite app_nil_r; reflexivity|].
                split; [symmetry; apply ztake_len|]. split; [discriminate|exact Hr].
              + exists []. split; [erewrite accepted_app by reflexivity; reflexivity|]. split; [reflexivity|]. split; [discriminate|exact Hr].
              + exists []. split; [erewrite accepted_app by reflexivity; reflexivity|]. split; [reflexivity|]. split; [discriminate|exact Hr]. }
          destruct Q as (x & Q1 & Q2 & Q3 & Q4).
          do 3 eexists. exists data, free, T, x. split; [reflexivity|]. split; [exists R; cbn; auto|]. split; [lia|].
          split; [destruct r; cbn; congruence|]. split; [exact Q1|]. split; [exact Q2|reflexivity].
        - destruct (sink_flush (bw_sink b)) as [s r] eqn:E. destruct H as (R & I & A & L & Hh).
          assert (Q : accepted s = accepted (bw_sink b) ++ [] /\ r <> Fault /\ Forall whonest (ws_script s)).
          { unfold sink_flush in E. destruct (ws_script (bw_sink b)) as [|a rest] eqn:Es.
            - injection E as <- <-. rewrite app_nil_r, Es. split; [reflexivity|]. split; [discriminate|constructor].
            - apply Forall_cons_iff in Hh as [Ha Hr]. destruct a as [k|k|e|]; injection E as <- <-;
                (split; [erewrite accepted_app by reflexivity; reflexivity|]); (split; [discriminate|exact Hr]). }
          destruct Q as (Q1 & Q3 & Q4).
          do 3 eexists. exists data, free, T, []. split; [reflexivity|]. split; [exists R; cbn; auto|]. split; [lia|].
          split; [exact Q3|]. split; [exact Q1|]. split; reflexivity. }
      destruct Step as (b1 & d & r & data1 & free1 & T1 & x & E & H1 & HT & Nf & X & Law). rewrite E.
      assert (Nx : no_exact_fit t b (o :: os) -> no_exact_fit t b1 os).
      { cbn [no_exact_fit]. rewrite E. intros [_ N]. exact N. }
      assert (One : forall segs outs data', length segs = length outs -> pick direct_w os segs = pick direct_w os outs ->
        Permutation (data1 ++ thr os outs) (thr os segs ++ data') -> (no_exact_fit t b1 os -> data1 ++ thr os outs = thr os segs ++ data') ->
        (no_exact_fit t b1 os -> settled_w t b1 os -> data1 ++ concat outs = concat segs ++ data') ->
        length (x :: segs) = length (d :: outs) /\ pick direct_w (o :: os) (x :: segs) = pick direct_w (o :: os) (d :: outs) /\
        Permutation (data ++ thr (o :: os) (d :: outs)) (thr (o :: os) (x :: segs) ++ data') /\
        (no_exact_fit t b (o :: os) -> data ++ thr (o :: os) (d :: outs) = thr (o :: os) (x :: segs) ++ data') /\
        (no_exact_fit t b (o :: os) -> settled_w t b (o :: os) -> data ++ concat (d :: outs) = concat (x :: segs) ++ data')).
      { intros segs outs data' A1 A2 A3 A4 A5. unfold thr in *. split; [apply (f_equal S) in A1; exact A1|]. cbn [pick].
        assert (Last : no_exact_fit t b (o :: os) -> settled_w t b (o :: os) -> data ++ concat (d :: outs) = concat (x :: segs) ++ data').
        { intros N S0. cbn [settled_w] in S0. rewrite E in S0. destruct S0 as [S1 S2]. cbn [concat].
          assert (L1 : data ++ d = x ++ data1).
          { destruct (direct_w o); [|destruct Law as [_ Law]; apply Law, N]. destruct Law as [-> ->].
            destruct (wi_ring t Hbits cap Hcap Hword _ _ _ _ H) as (_ & _ & _ & EB). rewrite (S1 eq_refl) in EB. injection EB as <-.
            symmetry. apply app_nil_r. }
          rewrite app_assoc, L1, <- !app_assoc, (A5 (Nx N) S2). reflexivity. }
        destruct (direct_w o); cbn [negb].
        - destruct Law as [-> ->]. split; [exact (f_equal (cons d) A2)|]. split; [exact A3|]. split; [intros N; exact (A4 (Nx N))|exact Last].
        - destruct Law as [L1 L2]. split; [exact A2|]. cbn [concat]. split; [|split; [|exact Last]].
          + rewrite (app_assoc data d). etransitivity; [apply Permutation_app_tail, L1|]. rewrite <- !app_assoc. apply Permutation_app_head, A3.
          + intros N. rewrite (app_assoc data d), (L2 N), <- !app_assoc, (A4 (Nx N)). reflexivity. }
      fold thr in IH. destruct r as [u|e| | |]; try congruence.
      4:{ exists b1, [d], [Blocked], data1, free1, T1. split; [reflexivity|]. split; [exact H1|]. split; [change (wcalls_weight (o :: os)) with (wcall_weight o + wcalls_weight os); lia|]. split; [repeat constructor; discriminate|].
          exists [x]. destruct (One [] [] data1) as (B1 & B2 & B3 & B4 & B5); unfold thr; rewrite ?pick_nil; cbn; rewrite ?app_nil_r; auto.
          split; [exact B1|]. split; [exact X|]. split; [exact B2|]. split; [exact B3|]. split; [exact B4|].
          cbn in B5. rewrite !app_nil_r in B5. exact B5. }
      all: destruct (IH b1 data1 free1 T1 H1) as (b' & outs & rs & data' & free' & T' & E2 & H2 & L2 & F2 & segs & A1 & A2 & A3 & A4 & A5 & A6);
        [eapply (room_le t Hbits); [exact Hp|lia]|]; rewrite E2; exists b', (d :: outs); eexists; exists data', free', T';
        (split; [reflexivity|]); (split; [exact H2|]);
        (split; [change (wcalls_weight (o :: os)) with (wcall_weight o + wcalls_weight os); lia|]); (split; [constructor; [discriminate|exact F2]|]);
        destruct (One segs outs data' A1 A3 A4 A5 A6) as (B1 & B2 & B3 & B4 & B5); exists (x :: segs);
        (split; [exact B1|]); (split; [cbn [concat]; rewrite A2, X, app_assoc; reflexivity|]); auto.
  Qed.
  Theorem given_law log script calls m os b outs rs : room t cap (wcalls_weight os) -> Forall whonest script ->
    let b0 := bw_from_parts {| ws_log := log; ws_script := script; ws_calls := calls |} (ring_make cap m) in
    dw_run t b0 os = (b, outs, rs) ->
    Forall (fun r => r <> Fault) rs /\ exists buffered acc, bw_buffer t b = Ret buffered /\
      accepted (bw_sink b) = accepted (bw_sink b0) ++ acc /\ given_in_turn [] os outs buffered acc (no_exact_fit t b0 os) /\
      (no_exact_fit t b0 os -> settled_w t b0 os -> concat outs = acc ++ buffered).
  Proof.
    intros Hp Hh b0 E.
    destruct (dw_run_law os _ _ _ _ (bw_new_wi t Hbits cap Hcap Hword script log calls m Hh) Hp)
      as (b' & outs' & rs' & data' & free' & T' & E' & H' & _ & F' & segs & A1 & A2 & A3 & A4 & A5 & A6).
    fold b0 in E', A2, A5, A6. rewrite E in E'. injection E' as <- <- <-. split; [exact F'|]. exists data', (concat segs).
    split; [destruct (wi_ring t Hbits cap Hcap Hword _ _ _ _ H') as (_ & _ & _ & Q); exact Q|]. split; [exact A2|].
    split; [|exact A6]. exists segs. auto 6.
  Qed.
End Direct.
