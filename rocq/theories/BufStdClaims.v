(** std's methods on buffered readers and writers: the claims. *)
From Coq Require Import Lia Permutation.
From Verif Require Import Base ErrorModel RingSpec RingModel BufSpec BufModel SeqProofs SizeProofs RingProofs RingTheorems RingClaims
  BufReaderProofs BufReasons BufWriterProofs BufClaims StdModel StdSpec BufStdModel BufStdSpec BufStdProofs.

(** ** io::copy *)
Section Copy.
  Variable t : target.
  Hypothesis Hbits : 32 <= t_bits t <= 64.
  Variable cap : Z.
  Hypothesis Hcap : 0 < cap.
  Hypothesis Hword : 2 * cap < 2 ^ t_bits t.
  Variable src0 : bytes.
  Hypothesis Hpos : pos_ok t cap (zlen src0).
  Notation bi := (bi t cap src0).
  Variable wcap : Z.
  Hypothesis Hwcap : 0 < wcap.
  Hypothesis Hwword : 2 * wcap < 2 ^ t_bits t.
  Notation wi := (wi t wcap).

  Lemma pos_not_over X : pos_ok t wcap X -> ~ over t X.
  Proof. intros ([H|H] & _) (H1 & H2); [lia|congruence]. Qed.

  Lemma copy_spec sizes (Hs : forall i, 0 < sizes i) fuel : forall b w out got tld data free wd wf T b' w' got' tld' r,
    bi b (out ++ got) data free -> wi w wd wf T -> flag_ok w -> pos_ok t wcap (T + zlen data + zlen (rs_src (br_src b))) ->
    std_copy_loop t fuel sizes b w got tld = (b', w', got', tld', r) ->
    exists ns chunks more rs ws data' free' lost, 
      got' = got ++ concat chunks /\ tld' = tld ++ more /\
      br_run t b (map BRead ns) = (b', concat chunks, rs) /\ Forall (fun n => exists i, n = sizes i) ns /\
      bw_run t w (map WWriteAll chunks) = (w', more, ws) /\
      bi b' (out ++ got') data' free' /\ concat chunks = more ++ lost /\
      match r with
      | Ret _ => lost = [] /\ data' = [] /\ ran_dry (br_src b) (br_src b')
      | Err e => (lost = [] /\ broke (br_src b) (br_src b') e) \/
                 (io_kind_of e <> Interrupted /\ exists pre, ws_script (bw_sink w) = pre ++ ws_script (bw_sink w') /\ refused pre e)
      | Panic => (lost = [] /\ blew (br_src b) (br_src b')) \/ last_write_panicked (bw_sink w') = true
      | Blocked => (length (rs_script (br_src b)) + length data + length (rs_src (br_src b)) < fuel)%nat ->
                   rs_script (br_src b') = [] \/ ws_script (bw_sink w') = []
      | Fault => False
      end.
  Proof.
    induction fuel as [|f IH]; intros b w out got tld data free wd wf T b' w' got' tld' r B W Fg Hp E; cbn [std_copy_loop] in E.
    { injection E as <- <- <- <- <-. exists [], [], [], [], [], data, free, []. cbn [concat map br_run bw_run]. rewrite !app_nil_r.
      do 3 (split; [reflexivity|]). split; [constructor|]. split; [reflexivity|]. split; [exact B|]. split; [reflexivity|]. lia. }
    destruct (br_read t b (sizes f)) as [[b1 d] r1] eqn:Er.
    destruct (read_full t Hbits cap Hcap Hword src0 Hpos _ _ _ _ _ _ _ _ B (Hs f) Er) as (data1 & free1 & M).
    assert (Step : br_step t b (BRead (sizes f)) = (b1, match r1 with Ret k => ztake k d | _ => [] end, obind r1 (fun _ => Ret tt))).
    { cbn [br_step]. rewrite Er. reflexivity. }
    (* the call ends with this read *)
    assert (Stop : (b1, w, got, tld, r) = (b', w', got', tld', r) -> match r1 with Ret k => ztake k d | _ => [] end = [] ->
      exists rs, br_run t b (map BRead [sizes f]) = (b1, concat [], rs)).
    { intros _ Hd. cbn [map br_run]. rewrite Step, Hd. destruct (obind r1 (fun _ => Ret tt)); eexists; reflexivity. }
    destruct r1 as [k|e| | |].
    - destruct M as (-> & B1 & Fl & Dry & Ms). rewrite ztake_all in E, Step by lia. destruct (Z.eqb_spec (zlen d) 0) as [Hd|Hd].
      + apply zlen_0 in Hd. subst d. rewrite app_nil_r in B1. injection E as <- <- <- <- <-.
        destruct (Stop eq_refl) as (rs & R); [reflexivity|].
        exists [sizes f], [], [], rs, [], data1, free1, []. rewrite !app_nil_r. cbn [concat].
        split; [reflexivity|]. split; [reflexivity|]. split; [exact R|]. split; [repeat constructor; exists f; reflexivity|].
        split; [reflexivity|]. split; [exact B1|]. split; [reflexivity|]. destruct (Dry eq_refl) as (-> & Dr). auto.
      + pose proof (bi_stream t cap src0 _ _ _ _ _ _ _ _ B B1) as Sm. rewrite <- app_assoc in B1.
        destruct (bw_write_all t w d) as [[w1 tl] r2] eqn:Ew. assert (WStep : bw_step t w (WWriteAll d) = (w1, tl, r2)) by exact Ew.
        assert (Hlen : zlen d + zlen data1 + zlen (rs_src (br_src b1)) = zlen data + zlen (rs_src (br_src b))).
        { apply (f_equal (@zlen byte)) in Sm. rewrite !zlen_app in Sm. lia. }
        pose proof (zlen_nonneg data1). pose proof (zlen_nonneg (rs_src (br_src b1))).
        assert (Hr : room t wcap (T + zlen d)) by (left; eapply pos_ok_le; [exact Hbits|exact Hp|lia]).
        unfold bw_write_all in Ew.
        destruct (write_all_spec t Hbits wcap Hwcap Hwword (length d + length (ws_script (bw_sink w)) + 1) w d [] wd wf T W Hr)
          as (w2 & more2 & wd2 & wf2 & T2 & r3 & E2 & W2 & HT & (rest & Hrest) & _ & _ & Fl2 & pre & Hpre & M2).
        rewrite Ew in E2. cbn [app] in E2. injection E2 as <- -> <-.
        assert (Over : ~ over t (T + zlen d)).
        { apply pos_not_over. eapply pos_ok_le; [exact Hbits|exact Hp|lia]. }
        assert (End : r2 <> Ret tt -> (b1, w1, got ++ d, tld ++ more2, r2) = (b', w', got', tld', r) ->
          exists rs ws, br_run t b (map BRead [sizes f]) = (b', concat [d], rs) /\ bw_run t w (map WWriteAll [d]) = (w', more2, ws) /\
            got' = got ++ concat [d] /\ tld' = tld ++ more2 /\ bi b' (out ++ got') data1 free1 /\ r = r2 /\ b' = b1 /\ w' = w1).
        { intros Hn [= <- <- <- <- <-]. cbn [map br_run bw_run concat]. rewrite Step, WStep. cbn [obind]. rewrite app_nil_r.
          destruct r2; do 2 eexists; (split; [reflexivity|]); (split; [rewrite ?app_nil_r; reflexivity|]); auto 10. }
        destruct r2 as [[]|e| | |].
        * (* go on *)
          subst more2.
          assert (Hp1 : pos_ok t wcap (T2 + zlen data1 + zlen (rs_src (br_src b1)))) by (eapply pos_ok_le; [exact Hbits|exact Hp|lia]).
          destruct (IH _ _ _ _ _ _ _ _ _ _ _ _ _ _ _ B1 W2 (Fl2 Fg ltac:(discriminate)) Hp1 E)
            as (ns & chunks & more & rs & ws & data3 & free3 & lost & -> & -> & R & Fn & WR & B3 & El & M3).
          exists (sizes f :: ns), (d :: chunks), (d ++ more), (Ret tt :: rs), (Ret tt :: ws), data3, free3, lost.
          cbn [map concat br_run bw_run]. rewrite Step, WStep, R, WR. cbn [obind]. rewrite <- !app_assoc.
          split; [reflexivity|]. split; [reflexivity|]. split; [reflexivity|]. split; [constructor; [exists f; reflexivity|exact Fn]|].
          split; [reflexivity|]. split; [rewrite <- app_assoc in B3; exact B3|]. split; [rewrite El; reflexivity|].
          destruct r as [u|e| | |].
          -- destruct M3 as (M3 & M4 & M5). split; [exact M3|]. split; [exact M4|]. eapply dry_after; eauto.
          -- destruct M3 as [(M3 & M4)|(M3 & pre' & M4 & M5)]; [left; split; [exact M3|]; eapply broke_after; eauto|right].
             split; [exact M3|]. exists (pre ++ pre'). rewrite Hpre, M4, app_assoc. split; [reflexivity|]. apply refused_app, M5.
          -- destruct M3 as [(M3 & M4)|M3]; [left; split; [exact M3|]; eapply blew_after; eauto|right; exact M3].
          -- exact M3.
          -- intro L. apply M3. lia.
        * destruct (End ltac:(discriminate) E) as (rs & ws & R & WR & Eg & Et & B3 & -> & -> & ->).
          exists [sizes f], [d], more2, rs, ws, data1, free1, rest. do 3 (split; [assumption|]). split; [repeat constructor; exists f; reflexivity|].
          split; [exact WR|]. split; [exact B3|]. split; [cbn [concat]; rewrite app_nil_r; exact Hrest|]. right. destruct M2 as (M2 & M3). split; [exact M3|].
          exists pre. auto.
        * destruct (End ltac:(discriminate) E) as (rs & ws & R & WR & Eg & Et & B3 & -> & -> & ->).
          exists [sizes f], [d], more2, rs, ws, data1, free1, rest. do 3 (split; [assumption|]). split; [repeat constructor; exists f; reflexivity|].
          split; [exact WR|]. split; [exact B3|]. split; [cbn [concat]; rewrite app_nil_r; exact Hrest|]. right.
          destruct M2 as [M2|M2]; [|contradiction]. rewrite <- (Fl2 Fg ltac:(discriminate)). exact M2.
        * contradiction M2.
        * destruct (End ltac:(discriminate) E) as (rs & ws & R & WR & Eg & Et & B3 & -> & -> & ->).
          exists [sizes f], [d], more2, rs, ws, data1, free1, rest. do 3 (split; [assumption|]). split; [repeat constructor; exists f; reflexivity|].
          split; [exact WR|]. split; [exact B3|]. split; [cbn [concat]; rewrite app_nil_r; exact Hrest|]. intros _. right. apply M2. lia.
    - destruct M as (B1 & (x & Hx) & Ms). assert (Ls : (length (rs_script (br_src b)) = S (length (rs_script (br_src b1))))%nat) by (rewrite Hx; reflexivity).
      destruct (io_kind_of e) eqn:Ek;
        try (injection E as <- <- <- <- <-; destruct (Stop eq_refl eq_refl) as (rs & R);
          exists [sizes f], [], [], rs, [], data1, free1, []; rewrite !app_nil_r; cbn [concat];
          (split; [reflexivity|]); (split; [reflexivity|]); (split; [exact R|]); (split; [repeat constructor; exists f; reflexivity|]);
          (split; [reflexivity|]); (split; [exact B1|]); (split; [reflexivity|]); left; (split; [reflexivity|]);
          eapply one_broke; [exact Hx|rewrite Ek; discriminate]).
      assert (Hp1 : pos_ok t wcap (T + zlen data1 + zlen (rs_src (br_src b1)))) by (eapply pos_ok_le; [exact Hbits|exact Hp|unfold zlen; lia]).
      destruct (IH _ _ _ _ _ _ _ _ _ _ _ _ _ _ _ B1 W Fg Hp1 E) as (ns & chunks & more & rs & ws & data3 & free3 & lost & -> & -> & R & Fn & WR & B3 & El & M3).
      exists (sizes f :: ns), chunks, more, (Err e :: rs), ws, data3, free3, lost. cbn [map br_run]. rewrite Step, R. cbn [obind app].
      split; [reflexivity|]. split; [reflexivity|]. split; [reflexivity|]. split; [constructor; [exists f; reflexivity|exact Fn]|].
      split; [exact WR|]. split; [exact B3|]. split; [exact El|]. pose proof (one_goes _ _ _ _ Hx Ek) as Fl.
      destruct r as [u|e'| | |].
      + destruct M3 as (M3 & M4 & M5). split; [exact M3|]. split; [exact M4|]. eapply dry_after; eauto.
      + destruct M3 as [(M3 & M4)|M3]; [left; split; [exact M3|]; eapply broke_after; eauto|right; exact M3].
      + destruct M3 as [(M3 & M4)|M3]; [left; split; [exact M3|]; eapply blew_after; eauto|right; exact M3].
      + exact M3.
      + intro L. apply M3. lia.
    - injection E as <- <- <- <- <-. destruct (Stop eq_refl eq_refl) as (rs & R). destruct M as (B1 & M).
      exists [sizes f], [], [], rs, [], data1, free1, []. rewrite !app_nil_r. cbn [concat].
      split; [reflexivity|]. split; [reflexivity|]. split; [exact R|]. split; [repeat constructor; exists f; reflexivity|].
      split; [reflexivity|]. split; [exact B1|]. split; [reflexivity|]. left. auto.
    - contradiction M.
    - injection E as <- <- <- <- <-. destruct (Stop eq_refl eq_refl) as (rs & R). destruct M as (B1 & M).
      exists [sizes f], [], [], rs, [], data1, free1, []. rewrite !app_nil_r. cbn [concat].
      split; [reflexivity|]. split; [reflexivity|]. split; [exact R|]. split; [repeat constructor; exists f; reflexivity|].
      split; [reflexivity|]. split; [exact B1|]. split; [reflexivity|]. intros _. left. exact M.
  Qed.
End Copy.

Section C.
  Variable t : target.
  Hypothesis Hg : good_target t.
  Let Hbits := good_bits t Hg.

  (** A further history from a reached state. *)
  Lemma reached_more cap src script os b d rs os' b' s rs' : br_reached t cap src script os b d rs -> ~ In Blocked rs -> Forall (brop_ok t) os' ->
    br_run t b os' = (b', s, rs') -> br_reached t cap src script (os ++ os') b' (d ++ s) (rs ++ rs').
  Proof.
    intros H Nb Fo E. destruct (stream_claim t Hg _ _ _ _ _ _ _ H) as (Ff & _).
    destruct H as (Hc & Hw & Hp & Hh & Ho & m & R). split; [exact Hc|]. split; [exact Hw|]. split; [exact Hp|]. split; [exact Hh|].
    split; [apply Forall_app; auto|]. exists m. eapply br_run_app; [exact R|exact Nb| |exact E].
    intro X. rewrite Forall_forall in Ff. exact (Ff _ X eq_refl).
  Qed.
  Lemma fuel_enough cap src b out data free : 0 < cap -> bi t cap src b out data free ->
    (length (rs_script (br_src b)) + length data + length (rs_src (br_src b)) < br_fuel b)%nat.
  Proof. intros Hc B. destruct (bi_fuel t Hbits cap Hc src _ _ _ _ B) as (L & H). unfold br_fuel. rewrite L. lia. Qed.

  Lemma to_end_claim cap src script os b d rs sizes b' s r : br_reached t cap src script os b d rs -> (forall i, 0 < sizes i /\ is_usize t (sizes i)) ->
    br_read_to_end t sizes b = (b', s, r) ->
    exists buffered buffered', br_buffer t b = Ret buffered /\ br_buffer t b' = Ret buffered' /\
      s ++ buffered' ++ rs_src (br_src b') = buffered ++ rs_src (br_src b) /\
      match r with
      | Ret _ => buffered' = [] /\ ran_dry (br_src b) (br_src b')
      | Err e => broke (br_src b) (br_src b') e
      | Panic => blew (br_src b) (br_src b')
      | Blocked => rs_script (br_src b') = []
      | Fault => False
      end /\
      (~ In Blocked rs -> exists os' rs', br_reached t cap src script (os ++ os') b' (d ++ s) (rs ++ rs')).
  Proof.
    intros H Hs E. pose proof H as (Hc & Hw & Hp & Hh & Ho & m & _).
    destruct (reached_bi t Hg _ _ _ _ _ _ _ H) as (data & free & B & _ & _). unfold br_read_to_end in E.
    pose proof B as B0. rewrite <- (app_nil_r d) in B0.
    destruct (to_end_spec t Hbits cap Hc Hw src Hp sizes (fun i => proj1 (Hs i)) _ _ _ _ _ _ _ _ _ B0 E) as (data' & free' & B' & M).
    exists data, data'. destruct (bi_ring t Hbits cap Hc Hw src _ _ _ _ B) as (_ & _ & EB). destruct (bi_ring t Hbits cap Hc Hw src _ _ _ _ B') as (_ & _ & EB').
    split; [exact EB|]. split; [exact EB'|]. split; [exact (bi_stream t cap src _ _ _ _ _ _ _ _ B B')|]. split.
    - destruct r; try exact M. apply M. exact (fuel_enough _ _ _ _ _ _ Hc B).
    - intro Nb. destruct (to_end_run t _ _ _ _ _ _ _ E) as (ns & more & rs' & Em & R & Fn). cbn [app] in Em. subst more.
      exists (map BRead ns), rs'. apply (reached_more cap src script os b d rs (map BRead ns) b' s rs'); [exact H|exact Nb| |exact R].
      apply Forall_map. eapply Forall_impl; [|exact Fn]. intros n (i & ->). apply Hs.
  Qed.

  Lemma to_string_in valid s r : in_string valid s r (fst (to_string valid s r)) (snd (to_string valid s r)).
  Proof.
    destruct r; cbn; auto.
    - destruct (valid s); cbn; [left; auto|right]. split; [reflexivity|]. split; [reflexivity|]. eexists. split; reflexivity.
    - split; [reflexivity|]. destruct (valid s); cbn; auto.
  Qed.
  Lemma line_claim cap src script os b d rs valid b' s str r' : br_reached t cap src script os b d rs ->
    br_read_line t valid b = (b', s, (str, r')) ->
    exists r, br_read_until t b 10 = (b', s, r) /\ in_string valid s r str r' /\
      (~ In Blocked rs -> br_reached t cap src script (os ++ [BUntil 10]) b' (d ++ s) (rs ++ [r])).
  Proof.
    intros H E. unfold br_read_line in E. destruct (br_read_until t b 10) as [[b1 s1] r] eqn:Eu. injection E as <- <- E2.
    exists r. split; [reflexivity|]. split; [pose proof (to_string_in valid s1 r) as X; rewrite E2 in X; exact X|].
    intro Nb. eapply reached_more; [exact H|exact Nb|repeat constructor|apply until_run, Eu].
  Qed.
  Lemma to_string_claim cap src script os b d rs valid sizes b' s str r' : br_reached t cap src script os b d rs -> (forall i, 0 < sizes i /\ is_usize t (sizes i)) ->
    br_read_to_string t valid sizes b = (b', s, (str, r')) ->
    exists r, br_read_to_end t sizes b = (b', s, r) /\ in_string valid s r str r'.
  Proof.
    intros H Hs E. unfold br_read_to_string in E. destruct (br_read_to_end t sizes b) as [[b1 s1] r] eqn:Eu. injection E as <- <- E2.
    exists r. split; [reflexivity|]. pose proof (to_string_in valid s1 r) as X. rewrite E2 in X. exact X.
  Qed.

  Lemma split_claim cap src script os b d rs c b' s ps r : br_reached t cap src script os b d rs -> Forall steady (rs_script (br_src b)) ->
    br_split t b c = (b', s, ps, r) ->
    exists buffered buffered', br_buffer t b = Ret buffered /\ br_buffer t b' = Ret buffered' /\
      s ++ buffered' ++ rs_src (br_src b') = buffered ++ rs_src (br_src b) /\
      match r with
      | Ret _ => s = buffered ++ rs_src (br_src b) /\ pieces c s ps /\ ran_dry (br_src b) (br_src b')
      | Err e => (exists s0 lost, s = s0 ++ lost /\ ~ In c lost /\ pieces c s0 ps) /\ broke (br_src b) (br_src b') e
      | Panic => (exists s0 lost, s = s0 ++ lost /\ ~ In c lost /\ pieces c s0 ps) /\ blew (br_src b) (br_src b')
      | Blocked => (exists s0 lost, s = s0 ++ lost /\ ~ In c lost /\ pieces c s0 ps) /\ rs_script (br_src b') = []
      | Fault => False
      end /\
      (~ In Blocked rs -> exists n rs', br_reached t cap src script (os ++ repeat (BUntil c) n) b' (d ++ s) (rs ++ rs')).
  Proof.
    intros H Hs E. pose proof H as (Hc & Hw & Hp & Hh & Ho & m & _).
    destruct (reached_bi t Hg _ _ _ _ _ _ _ H) as (data & free & B & _ & _). unfold br_split in E.
    pose proof B as B0. rewrite <- (app_nil_r d) in B0.
    assert (Sf : sofar c [] [] (data = [] /\ rs_src (br_src b) = [])) by (split; [constructor|left; reflexivity]).
    destruct (split_spec t Hbits cap Hc Hw src Hp c _ _ _ _ _ _ _ _ _ _ _ B0 Hs Sf E) as (data' & free' & B' & M).
    exists data, data'. destruct (bi_ring t Hbits cap Hc Hw src _ _ _ _ B) as (_ & _ & EB). destruct (bi_ring t Hbits cap Hc Hw src _ _ _ _ B') as (_ & _ & EB').
    pose proof (bi_stream t cap src _ _ _ _ _ _ _ _ B B') as Sm.
    split; [exact EB|]. split; [exact EB'|]. split; [exact Sm|]. split.
    - destruct r; try exact M.
      + destruct M as (M1 & -> & M3 & M4). rewrite M3 in Sm. cbn [app] in Sm. rewrite app_nil_r in Sm. auto.
      + destruct M as (M1 & M2). split; [exact M1|]. apply M2. pose proof (fuel_enough _ _ _ _ _ _ Hc B). lia.
    - intro Nb. destruct (split_run t _ _ _ _ _ _ _ _ _ E) as (n & more & rs' & Em & R). cbn [app] in Em. subst more.
      exists n, rs'. apply (reached_more cap src script os b d rs (repeat (BUntil c) n) b' s rs'); [exact H|exact Nb| |exact R].
      clear. induction n; cbn; constructor; cbn; auto.
  Qed.

  Lemma lines_claim cap src script os b d rs valid b' s ls r : br_reached t cap src script os b d rs -> Forall steady (rs_script (br_src b)) ->
    br_lines t valid b = (b', s, ls, r) ->
    exists buffered buffered', br_buffer t b = Ret buffered /\ br_buffer t b' = Ret buffered' /\
      s ++ buffered' ++ rs_src (br_src b') = buffered ++ rs_src (br_src b) /\
      match r with
      | Ret _ => s = buffered ++ rs_src (br_src b) /\ lines_of s ls /\ ran_dry (br_src b) (br_src b')
      | Err e => exists s0 bad, s = s0 ++ bad /\ lines_of s0 ls /\
                   (broke (br_src b) (br_src b') e \/ (valid bad = false /\ io_kind_of e = OtherKind (-2) /\ flowed (br_src b) (br_src b')))
      | Panic => blew (br_src b) (br_src b')
      | Blocked => rs_script (br_src b') = []
      | Fault => False
      end /\
      (~ In Blocked rs -> exists n rs', br_reached t cap src script (os ++ repeat (BUntil 10) n) b' (d ++ s) (rs ++ rs')).
  Proof.
    intros H Hs E. pose proof H as (Hc & Hw & Hp & Hh & Ho & m & _).
    destruct (reached_bi t Hg _ _ _ _ _ _ _ H) as (data & free & B & _ & _). unfold br_lines in E.
    pose proof B as B0. rewrite <- (app_nil_r d) in B0.
    assert (Sf : lines_sofar [] [] (data = [] /\ rs_src (br_src b) = [])).
    { exists [], [], []. cbn. split; [reflexivity|]. split; [repeat constructor; intros []|]. split; [constructor|]. auto. }
    destruct (lines_spec t Hbits cap Hc Hw src Hp valid _ _ _ _ _ _ _ _ _ _ _ B0 Hs Sf E) as (data' & free' & B' & M).
    exists data, data'. destruct (bi_ring t Hbits cap Hc Hw src _ _ _ _ B) as (_ & _ & EB). destruct (bi_ring t Hbits cap Hc Hw src _ _ _ _ B') as (_ & _ & EB').
    pose proof (bi_stream t cap src _ _ _ _ _ _ _ _ B B') as Sm.
    split; [exact EB|]. split; [exact EB'|]. split; [exact Sm|]. split.
    - destruct r; try exact M.
      + destruct M as (M1 & -> & M3 & M4). rewrite M3 in Sm. cbn [app] in Sm. rewrite app_nil_r in Sm. auto.
      + apply M. pose proof (fuel_enough _ _ _ _ _ _ Hc B). lia.
    - intro Nb. destruct (lines_run t _ _ _ _ _ _ _ _ _ E) as (n & more & rs' & Em & R). cbn [app] in Em. subst more.
      exists n, rs'. apply (reached_more cap src script os b d rs (repeat (BUntil 10) n) b' s rs'); [exact H|exact Nb| |exact R].
      clear. induction n; cbn; constructor; cbn; auto.
  Qed.

  (** *** Writer *)
  Lemma bw_run_app os os' : forall b b1 d rs b2 d' rs', bw_run t b os = (b1, d, rs) -> ~ In Blocked rs -> ~ In Fault rs ->
    bw_run t b1 os' = (b2, d', rs') -> bw_run t b (os ++ os') = (b2, d ++ d', rs ++ rs').
  Proof.
    induction os as [|o os IH]; intros b b1 d rs b2 d' rs' E B F E'; cbn [bw_run app] in *.
    { injection E as -> <- <-. exact E'. }
    destruct (bw_step t b o) as [[b0 d0] r0]. destruct (bw_run t b0 os) as [[b3 d3] rs3] eqn:E3.
    destruct r0; try (injection E as -> <- <-; exfalso; first [apply B; left; reflexivity|apply F; left; reflexivity]).
    all: injection E as -> <- <-; rewrite (IH _ _ _ _ _ _ _ E3 (fun x => B (or_intror x)) (fun x => F (or_intror x)) E'), <- app_assoc; reflexivity.
  Qed.
  Lemma weight_app os os' : bwops_weight (os ++ os') = bwops_weight os + bwops_weight os'.
  Proof. induction os as [|o os IH]; cbn [app]; [reflexivity|]. unfold bwops_weight in *. cbn [fold_right]. lia. Qed.
  Lemma weight_chunks cs : bwops_weight (map WWriteAll cs) = zlen (concat cs).
  Proof. induction cs as [|c cs IH]; [reflexivity|]. cbn [map concat]. unfold bwops_weight in *. cbn [fold_right bwop_weight]. rewrite IH, zlen_app. reflexivity. Qed.
  Lemma weight_firstn n cs : bwops_weight (map WWriteAll (firstn n cs)) <= zlen (concat cs).
  Proof.
    rewrite weight_chunks. rewrite <- (firstn_skipn n cs) at 2. rewrite concat_app, zlen_app. pose proof (zlen_nonneg (concat (skipn n cs))). lia.
  Qed.

  Lemma wreached_more cap os0 r0 script os b told rs os' b' s rs' : bw_reached t cap os0 r0 script os b told rs -> ~ In Blocked rs ->
    pos_ok t cap (total_after 0 cap os0 + bwops_weight os + bwops_weight os') -> bw_run t b os' = (b', s, rs') ->
    bw_reached t cap os0 r0 script (os ++ os') b' (told ++ s) (rs ++ rs').
  Proof.
    intros H Nb Hp E. destruct (conserve_claim t Hg _ _ _ _ _ _ _ _ (or_introl H)) as (Ff & _).
    destruct H as (HR & Hp0 & Hh & R). split; [exact HR|]. split; [rewrite weight_app, Z.add_assoc; exact Hp|]. split; [exact Hh|].
    eapply bw_run_app; [exact R|exact Nb| |exact E]. intro X. rewrite Forall_forall in Ff. exact (Ff _ X eq_refl).
  Qed.

  Lemma wreached_wi cap os0 r0 script os b told rs : bw_reached t cap os0 r0 script os b told rs -> ~ In Blocked rs ->
    0 < cap /\ 2 * cap < 2 ^ t_bits t /\ exists data free T, wi t cap b data free T /\ T <= total_after 0 cap os0 + bwops_weight os /\ flag_ok b.
  Proof.
    intros (HR & Hp & Hh & E) Nb. pose proof HR as (Hc & Hw & _). split; [exact Hc|]. split; [exact Hw|].
    destruct (reached_inv t Hg cap os0 r0 HR) as (T & R & I & L & B). set (q := absq r0 T R).
    assert (W0 : wi t cap (bw_from_parts (fresh_sink script) r0) (q_data q) (q_free q) T).
    { exists R. cbn [bw_from_parts bw_ring bw_sink fresh_sink ws_script]. split; [exact I|].
      split; [unfold q; destruct (absq r0 T R); reflexivity|]. auto. }
    destruct (bw_run_spec t Hbits cap Hc Hw os _ _ _ _ W0) as (b' & d & data & free & T' & rs' & E' & W & HT & _ & _ & Fl & _).
    { left. eapply pos_ok_le; [exact Hbits|exact Hp|lia]. }
    rewrite E in E'. injection E' as <- <- <-. exists data, free, T'. split; [exact W|]. split; [lia|]. apply Fl; [reflexivity|exact Nb].
  Qed.

  Lemma fmt_claim cap os0 r0 script os b told rs frags b' s r : bw_reached t cap os0 r0 script os b told rs -> ~ In Blocked rs ->
    pos_ok t cap (total_after 0 cap os0 + bwops_weight os + zlen (concat frags)) ->
    bw_write_fmt t b frags [] = (b', s, r) ->
    exists n rs', bw_reached t cap os0 r0 script (os ++ map WWriteAll (firstn n frags)) b' (told ++ s) (rs ++ rs') /\
      (exists lost, concat (firstn n frags) = s ++ lost /\ match r with Ret _ => lost = [] /\ firstn n frags = frags | _ => True end) /\
      match r with
      | Ret _ => True
      | Err e => io_kind_of e <> Interrupted /\ exists pre, ws_script (bw_sink b) = pre ++ ws_script (bw_sink b') /\ refused pre e
      | Panic => last_write_panicked (bw_sink b') = true
      | Blocked => ws_script (bw_sink b') = []
      | Fault => False
      end.
  Proof.
    intros H Nb Hp E.
    assert (K : forall frags b os b' acc s r told rs, bw_reached t cap os0 r0 script os b told rs -> ~ In Blocked rs ->
      pos_ok t cap (total_after 0 cap os0 + bwops_weight os + zlen (concat frags)) ->
      bw_write_fmt t b frags acc = (b', s, r) ->
      exists n more rs', s = acc ++ more /\ bw_reached t cap os0 r0 script (os ++ map WWriteAll (firstn n frags)) b' (told ++ more) (rs ++ rs') /\
      (exists lost, concat (firstn n frags) = more ++ lost /\ match r with Ret _ => lost = [] /\ firstn n frags = frags | _ => True end) /\
      match r with
      | Ret _ => True
      | Err e => io_kind_of e <> Interrupted /\ exists pre, ws_script (bw_sink b) = pre ++ ws_script (bw_sink b') /\ refused pre e
      | Panic => last_write_panicked (bw_sink b') = true
      | Blocked => ws_script (bw_sink b') = []
      | Fault => False
      end).
    { clear frags b os b' s r told rs H Nb Hp E.
      induction frags as [|x frags IH]; intros b os b' acc s r told rs H Nb Hp E; cbn [bw_write_fmt] in E.
      { injection E as <- <- <-. exists 0%nat, [], []. cbn [firstn map]. rewrite !app_nil_r. split; [reflexivity|]. split; [exact H|]. split; [|exact Logic.I].
        exists []. auto. }
      cbn [concat] in Hp. rewrite zlen_app in Hp. pose proof (zlen_nonneg (concat frags)) as Hcf. pose proof (zlen_nonneg x) as Hx.
      destruct (bw_write_all t b x) as [[b1 tl] r1] eqn:Ew. assert (R1 : bw_run t b [WWriteAll x] = (b1, tl, [r1])).
      { cbn [bw_run bw_step]. rewrite Ew. destruct r1; rewrite ?app_nil_r; reflexivity. }
      assert (H1 : bw_reached t cap os0 r0 script (os ++ [WWriteAll x]) b1 (told ++ tl) (rs ++ [r1])).
      { eapply wreached_more; [exact H|exact Nb| |exact R1]. eapply pos_ok_le; [exact Hbits|exact Hp|]. cbn. lia. }
      destruct (wreached_wi _ _ _ _ _ _ _ _ H Nb) as (Hc & Hw & data & free & T & W & HT & Fg).
      assert (HP0 : pos_ok t cap (T + zlen x)) by (eapply pos_ok_le; [exact Hbits|exact Hp|lia]).
      assert (HP : room t cap (T + zlen x)) by (left; exact HP0).
      unfold bw_write_all in Ew. destruct (write_all_spec t Hbits cap Hc Hw (length x + length (ws_script (bw_sink b)) + 1) b x [] data free T W HP)
        as (b2 & more & data2 & free2 & T2 & r2 & E2 & W2 & HT2 & (rest & Hrest) & _ & _ & Fl2 & pre & Hpre & M).
      rewrite Ew in E2. cbn [app] in E2. injection E2 as <- -> <-. 
      assert (Hp1 : pos_ok t cap (total_after 0 cap os0 + bwops_weight (os ++ [WWriteAll x]) + zlen (concat frags))).
      { eapply pos_ok_le; [exact Hbits|exact Hp|]. rewrite weight_app. cbn. lia. }
      destruct r1 as [[]|e| | |].
      - subst more. assert (Nb1 : ~ In Blocked (rs ++ [Ret tt])).
        { intro X. apply in_app_or in X. destruct X as [X|[X|[]]]; [exact (Nb X)|discriminate X]. }
        destruct (IH _ _ _ _ _ _ _ _ H1 Nb1 Hp1 E) as (n & more & rs' & -> & H2 & (lost & El & Ml) & M2).
        exists (S n), (x ++ more), ([Ret tt] ++ rs'). cbn [firstn map concat]. rewrite <- !app_assoc in *. split; [reflexivity|]. split; [exact H2|].
        split; [exists lost; rewrite El, app_assoc; split; [reflexivity|]; destruct r; auto; destruct Ml as (-> & Ml); rewrite Ml; auto|].
        destruct r; auto. destruct M2 as (M2 & pre' & M3 & M4). split; [exact M2|]. exists (pre ++ pre'). rewrite Hpre, M3, app_assoc. split; [reflexivity|]. apply refused_app, M4.
      - injection E as <- <- <-. exists 1%nat, more, [Err e]. split; [reflexivity|]. split; [exact H1|]. cbn [firstn concat]. rewrite app_nil_r. split; [exists rest; auto|].
        destruct M as (M1 & M2). split; [exact M2|]. exists pre. auto.
      - injection E as <- <- <-. exists 1%nat, more, [Panic]. split; [reflexivity|]. split; [exact H1|]. cbn [firstn concat]. rewrite app_nil_r. split; [exists rest; auto|].
        destruct M as [M|M]; [rewrite <- (Fl2 Fg ltac:(discriminate)); exact M|]. exfalso. exact (pos_not_over t cap _ HP0 M).
      - contradiction M.
      - injection E as <- <- <-. exists 1%nat, more, [Blocked]. split; [reflexivity|]. split; [exact H1|]. cbn [firstn concat]. rewrite app_nil_r. split; [exists rest; auto|].
        apply M. lia. }
    destruct (K _ _ _ _ _ _ _ _ _ H Nb Hp E) as (n & more & rs' & -> & H2 & L & M). exists n, rs'. auto.
  Qed.

  Lemma copy_claim cap src script os b d rs wcap os0 r0 wscript wos w wtold wrs sizes b' w' got tld r :
    br_reached t cap src script os b d rs -> ~ In Blocked rs ->
    bw_reached t wcap os0 r0 wscript wos w wtold wrs -> ~ In Blocked wrs ->
    pos_ok t wcap (total_after 0 wcap os0 + bwops_weight wos + zlen src) -> (forall i, 0 < sizes i /\ is_usize t (sizes i)) ->
    std_copy t sizes b w = (b', w', got, tld, r) ->
    exists ns chunks rs' wrs' buffered buffered' lost,
      br_reached t cap src script (os ++ map BRead ns) b' (d ++ got) (rs ++ rs') /\
      bw_reached t wcap os0 r0 wscript (wos ++ map WWriteAll chunks) w' (wtold ++ tld) (wrs ++ wrs') /\
      br_buffer t b = Ret buffered /\ br_buffer t b' = Ret buffered' /\
      got ++ buffered' ++ rs_src (br_src b') = buffered ++ rs_src (br_src b) /\
      got = concat chunks /\ got = tld ++ lost /\
      match r with
      | Ret _ => lost = [] /\ buffered' = [] /\ ran_dry (br_src b) (br_src b')
      | Err e => (lost = [] /\ broke (br_src b) (br_src b') e) \/
                 (io_kind_of e <> Interrupted /\ exists pre, ws_script (bw_sink w) = pre ++ ws_script (bw_sink w') /\ refused pre e)
      | Panic => (lost = [] /\ blew (br_src b) (br_src b')) \/ last_write_panicked (bw_sink w') = true
      | Blocked => rs_script (br_src b') = [] \/ ws_script (bw_sink w') = []
      | Fault => False
      end.
  Proof.
    intros H Nb HW Nw Hp Hs E. pose proof H as (Hc & Hw & Hp0 & Hh & Ho & m & _).
    destruct (reached_bi t Hg _ _ _ _ _ _ _ H) as (data & free & B & _ & _).
    destruct (wreached_wi _ _ _ _ _ _ _ _ HW Nw) as (Hwc & Hww & wd & wf & T & W & HT & Fg).
    assert (Ls : zlen data + zlen (rs_src (br_src b)) <= zlen src).
    { destruct B as (T1 & R1 & _ & _ & _ & _ & _ & _ & Hx). rewrite <- Hx, !zlen_app. pose proof (zlen_nonneg d). lia. }
    assert (Hp1 : pos_ok t wcap (T + zlen data + zlen (rs_src (br_src b)))) by (eapply pos_ok_le; [exact Hbits|exact Hp|lia]).
    pose proof B as B0. rewrite <- (app_nil_r d) in B0. unfold std_copy in E.
    destruct (copy_spec t Hbits cap Hc Hw src Hp0 wcap Hwc Hww sizes (fun i => proj1 (Hs i)) _ _ _ _ _ _ _ _ _ _ _ _ _ _ _ _ B0 W Fg Hp1 E)
      as (ns & chunks & more & rs' & wrs' & data' & free' & lost & Eg & Et & R & Fn & WR & B' & El & M).
    cbn [app] in Eg, Et. subst got tld.
    destruct (bi_ring t Hbits cap Hc Hw src _ _ _ _ B) as (_ & _ & EB). destruct (bi_ring t Hbits cap Hc Hw src _ _ _ _ B') as (_ & _ & EB').
    pose proof (bi_stream t cap src _ _ _ _ _ _ _ _ B B') as Sm.
    exists ns, chunks, rs', wrs', data, data', lost. split.
    { apply (reached_more cap src script os b d rs (map BRead ns) b' (concat chunks) rs'); [exact H|exact Nb| |exact R].
      apply Forall_map. eapply Forall_impl; [|exact Fn]. intros n (i & ->). apply Hs. }
    split.
    { apply (wreached_more wcap os0 r0 wscript wos w wtold wrs (map WWriteAll chunks) w' more wrs'); [exact HW|exact Nw| |exact WR].
      rewrite weight_chunks. eapply pos_ok_le; [exact Hbits|exact Hp|]. apply (f_equal (@zlen byte)) in Sm. rewrite !zlen_app in Sm.
      pose proof (zlen_nonneg data'). pose proof (zlen_nonneg (rs_src (br_src b'))). lia. }
    split; [exact EB|]. split; [exact EB'|]. split; [exact Sm|]. split; [reflexivity|]. split; [exact El|].
    destruct r; try exact M. apply M. exact (fuel_enough _ _ _ _ _ _ Hc B).
  Qed.

  (** A whole stream: copied and flushed, it is at the sink, once, behind what
      was there. *)
  Lemma copied_claim cap src script os b d rs wcap os0 r0 wscript wos w wtold wrs sizes b' w' got tld w'' :
    br_reached t cap src script os b d rs -> ~ In Blocked rs -> Forall steady (rs_script (br_src b)) ->
    bw_reached t wcap os0 r0 wscript wos w wtold wrs -> ~ In Blocked wrs ->
    pos_ok t wcap (total_after 0 wcap os0 + bwops_weight wos + zlen src) -> (forall i, 0 < sizes i /\ is_usize t (sizes i)) ->
    std_copy t sizes b w = (b', w', got, tld, Ret tt) -> bw_flush t w' = (w'', Ret tt) ->
    exists buffered pending, br_buffer t b = Ret buffered /\ bw_buffer t w = Ret pending /\
      got = buffered ++ rs_src (br_src b) /\ tld = got /\ bw_buffer t w'' = Ret [] /\ br_buffer t b' = Ret [] /\ rs_src (br_src b') = [] /\
      Permutation (accepted (bw_sink w'')) (accepted (bw_sink w) ++ pending ++ got) /\
      (exists chunks, got = concat chunks /\ (never_fits t w (map WWriteAll chunks) -> accepted (bw_sink w'') = accepted (bw_sink w) ++ pending ++ got)).
  Proof.
    intros H Nb St HW Nw Hp Hs E Ef.
    destruct (copy_claim _ _ _ _ _ _ _ _ _ _ _ _ _ _ _ _ _ _ _ _ _ H Nb HW Nw Hp Hs E)
      as (ns & chunks & rs' & wrs' & buffered & buffered' & lost & H' & HW' & EB & EB' & Sm & Eg & El & -> & -> & Dry).
    rewrite app_nil_r in El. assert (Z0 : rs_src (br_src b') = []) by (eapply dry_steady; eauto). rewrite Z0, !app_nil_r in Sm.
    destruct (wreached_wi _ _ _ _ _ _ _ _ HW Nw) as (Hwc & Hww & wd & wf & T & W & HT & Fg).
    destruct (wi_ring t Hbits wcap Hwc Hww _ _ _ _ W) as (_ & _ & _ & EWB).
    destruct (flush_claim t Hg _ _ _ _ _ _ _ _ _ _ (or_introl HW') Ef) as (data & data' & ED & ED' & Acc & -> & log & Hlog & _).
    rewrite app_nil_r in Acc. exists buffered, wd. split; [exact EB|]. split; [exact EWB|]. split; [exact Sm|]. split; [congruence|].
    split; [exact ED'|]. split; [exact EB'|]. split; [exact Z0|].
    assert (Ls : zlen got <= zlen src).
    { destruct (stream_claim t Hg _ _ _ _ _ _ _ H') as (_ & _ & bf & _ & Hx). rewrite <- Hx, !zlen_app. pose proof (zlen_nonneg d).
      pose proof (zlen_nonneg (bf ++ rs_src (br_src b'))). rewrite zlen_app in *. lia. }
    assert (Hr : room t wcap (T + bwops_weight (map WWriteAll chunks))).
    { left. rewrite weight_chunks, <- Eg. eapply pos_ok_le; [exact Hbits|exact Hp|lia]. }
    destruct (bw_run_spec t Hbits wcap Hwc Hww (map WWriteAll chunks) w wd wf T W Hr) as (w1 & d1 & data1 & free1 & T1 & rs1 & E1 & W1 & _ & Pm & Ord & _).
    (* the same run *)
    assert (Same : w1 = w' /\ d1 = tld).
    { destruct HW as (HR & Hp0 & Hh & R0). destruct HW' as (_ & _ & _ & R1).
      destruct (conserve_claim t Hg wcap os0 r0 wscript wos w wtold wrs (or_introl (conj HR (conj Hp0 (conj Hh R0))))) as (Ff & _).
      assert (Nf : ~ In Fault wrs) by (intro X; rewrite Forall_forall in Ff; exact (Ff _ X eq_refl)).
      rewrite (bw_run_app _ _ _ _ _ _ _ _ _ R0 Nw Nf E1) in R1. injection R1 as -> X _. split; [reflexivity|]. apply app_inv_head in X. exact X. }
    destruct Same as (-> & ->). destruct (wi_ring t Hbits wcap Hwc Hww _ _ _ _ W1) as (_ & _ & _ & EWB1). rewrite ED in EWB1. injection EWB1 as <-.
    rewrite <- El in *. split; [rewrite Acc; apply Permutation_sym; exact Pm|].
    exists chunks. split; [exact Eg|]. intro N. rewrite Acc. symmetry. exact (Ord N).
  Qed.
End C.
