(** std's methods on buffered readers and writers. *)
From Coq Require Import Lia Permutation.
From Verif Require Import Base ErrorModel RingSpec RingModel BufSpec BufModel SeqProofs SizeProofs RingProofs RingTheorems RingClaims
  BufReaderProofs BufReasons BufWriterProofs BufClaims StdModel StdSpec BufStdModel BufStdSpec.

(** ** Each method is a history of plain calls. *)
Section H.
  Variable t : target.

  Lemma br_run_app os os' : forall b b1 d rs b2 d' rs', br_run t b os = (b1, d, rs) -> ~ In Blocked rs -> ~ In Fault rs ->
    br_run t b1 os' = (b2, d', rs') -> br_run t b (os ++ os') = (b2, d ++ d', rs ++ rs').
  Proof.
    induction os as [|o os IH]; intros b b1 d rs b2 d' rs' E B F E'; cbn [br_run app] in *.
    { injection E as -> <- <-. exact E'. }
    destruct (br_step t b o) as [[b0 d0] r0]. destruct (br_run t b0 os) as [[b3 d3] rs3] eqn:E3.
    destruct r0; try (injection E as -> <- <-; exfalso; first [apply B; left; reflexivity|apply F; left; reflexivity]).
    all: injection E as -> <- <-; rewrite (IH _ _ _ _ _ _ _ E3 (fun x => B (or_intror x)) (fun x => F (or_intror x)) E'), <- app_assoc; reflexivity.
  Qed.

  Lemma to_end_run fuel sizes : forall b acc b' acc' r, br_to_end_loop t fuel sizes b acc = (b', acc', r) ->
    exists ns more rs, acc' = acc ++ more /\ br_run t b (map BRead ns) = (b', more, rs) /\ Forall (fun n => exists i, n = sizes i) ns.
  Proof.
    induction fuel as [|f IH]; intros b acc b' acc' r E; cbn [br_to_end_loop] in E.
    { injection E as <- <- <-. exists [], [], []. rewrite app_nil_r. split; [reflexivity|]. split; [reflexivity|constructor]. }
    destruct (br_read t b (sizes f)) as [[b1 d] r1] eqn:Er.
    assert (Step : forall r0, obind r1 (fun _ => Ret tt) = r0 -> match r1 with Ret k => ztake k d | _ => [] end = match r1 with Ret k => ztake k d | _ => [] end ->
      br_step t b (BRead (sizes f)) = (b1, match r1 with Ret k => ztake k d | _ => [] end, r0)).
    { intros r0 <- _. cbn [br_step]. rewrite Er. reflexivity. }
    assert (Stop : (b1, acc, r) = (b', acc', r) -> match r1 with Ret k => ztake k d | _ => [] end = [] ->
      exists ns more rs, acc' = acc ++ more /\ br_run t b (map BRead ns) = (b', more, rs) /\ Forall (fun n => exists i, n = sizes i) ns).
    { intros [= <- <-] Hd. exists [sizes f], []. cbn [map br_run]. rewrite (Step _ eq_refl eq_refl), Hd.
      destruct (obind r1 (fun _ => Ret tt)); eexists; (split; [rewrite app_nil_r; reflexivity|]); (split; [reflexivity|]); repeat constructor; exists f; reflexivity. }
    assert (More : forall acc1 x, br_to_end_loop t f sizes b1 acc1 = (b', acc', r) -> acc1 = acc ++ x -> match r1 with Ret k => ztake k d | _ => [] end = x ->
      (exists u, obind r1 (fun _ => Ret tt) = Ret u) \/ (exists e, obind r1 (fun _ => Ret tt) = Err e) ->
      exists ns more rs, acc' = acc ++ more /\ br_run t b (map BRead ns) = (b', more, rs) /\ Forall (fun n => exists i, n = sizes i) ns).
    { intros acc1 x E1 -> Hx HO. destruct (IH _ _ _ _ _ E1) as (ns & more & rs & -> & R & F).
      exists (sizes f :: ns), (x ++ more). cbn [map br_run]. rewrite (Step _ eq_refl eq_refl), Hx, R.
      destruct HO as [(u & ->)|(e & ->)]; eexists; (split; [rewrite app_assoc; reflexivity|]); (split; [reflexivity|]); (constructor; [exists f; reflexivity|exact F]). }
    destruct r1 as [k|e| | |].
    - destruct (Z.eqb_spec k 0) as [->|Hk].
      + injection E as <- <- <-. apply Stop; [reflexivity|]. unfold ztake. reflexivity.
      + eapply More; [exact E|reflexivity|reflexivity|]. left. eexists. reflexivity.
    - destruct (io_kind_of e); try (injection E as <- <- <-; apply Stop; reflexivity).
      eapply More; [exact E|symmetry; apply app_nil_r|reflexivity|]. right. eexists. reflexivity.
    - injection E as <- <- <-. apply Stop; reflexivity.
    - injection E as <- <- <-. apply Stop; reflexivity.
    - injection E as <- <- <-. apply Stop; reflexivity.
  Qed.

  Lemma until_run b c b' s r : br_read_until t b c = (b', s, r) -> br_run t b [BUntil c] = (b', s, [r]).
  Proof. intro E. cbn [br_run br_step]. rewrite E. destruct r; rewrite ?app_nil_r; reflexivity. Qed.

  (** After one call that answered. *)
  Lemma run_cons o os b b1 d u b2 ds rs : br_step t b o = (b1, d, Ret u) -> br_run t b1 os = (b2, ds, rs) ->
    br_run t b (o :: os) = (b2, d ++ ds, Ret u :: rs).
  Proof. intros E1 E2. cbn [br_run]. rewrite E1, E2. reflexivity. Qed.
  Lemma split_run fuel c : forall b acc ps b' acc' ps' r, br_split_loop t fuel b c acc ps = (b', acc', ps', r) ->
    exists n more rs, acc' = acc ++ more /\ br_run t b (repeat (BUntil c) n) = (b', more, rs).
  Proof.
    induction fuel as [|f IH]; intros b acc ps b' acc' ps' r E; cbn [br_split_loop] in E.
    { injection E as <- <- <- <-. exists 0%nat, [], []. rewrite app_nil_r. auto. }
    destruct (br_read_until t b c) as [[b1 s] r1] eqn:Eu. pose proof (until_run _ _ _ _ _ Eu) as R1. destruct r1 as [u| | | |].
    2-5: injection E as <- <- <- <-; exists 1%nat, s; eexists; split; [reflexivity|exact R1].
    destruct s as [|x s].
    - injection E as <- <- <- <-. exists 1%nat, []. rewrite app_nil_r. eexists. split; [reflexivity|exact R1].
    - destruct (IH _ _ _ _ _ _ _ E) as (n & more & rs & -> & R). exists (S n), ((x :: s) ++ more). eexists. rewrite <- app_assoc. split; [reflexivity|].
      cbn [repeat]. eapply run_cons; [|exact R]. cbn [br_step]. exact Eu.
  Qed.
  Lemma lines_run valid fuel : forall b acc ps b' acc' ps' r, br_lines_loop t valid fuel b acc ps = (b', acc', ps', r) ->
    exists n more rs, acc' = acc ++ more /\ br_run t b (repeat (BUntil 10) n) = (b', more, rs).
  Proof.
    induction fuel as [|f IH]; intros b acc ps b' acc' ps' r E; cbn [br_lines_loop] in E.
    { injection E as <- <- <- <-. exists 0%nat, [], []. rewrite app_nil_r. auto. }
    unfold br_read_line in E. destruct (br_read_until t b 10) as [[b1 s] r1] eqn:Eu. pose proof (until_run _ _ _ _ _ Eu) as R1.
    destruct (to_string valid s r1) as [l r2] eqn:Es. destruct r2 as [u| | | |].
    2-5: injection E as <- <- <- <-; exists 1%nat, s; eexists; split; [reflexivity|exact R1].
    assert (exists u, r1 = Ret u) as (u1 & ->).
    { destruct r1; cbn in Es; [eauto|discriminate Es..]. }
    destruct s as [|x s].
    - injection E as <- <- <- <-. exists 1%nat, []. rewrite app_nil_r. eexists. split; [reflexivity|exact R1].
    - destruct (IH _ _ _ _ _ _ _ E) as (n & more & rs & -> & R). exists (S n), ((x :: s) ++ more). eexists. rewrite <- app_assoc. split; [reflexivity|].
      cbn [repeat]. eapply run_cons; [|exact R]. cbn [br_step]. exact Eu.
  Qed.

  Lemma fmt_run frags : forall b told b' told' r, bw_write_fmt t b frags told = (b', told', r) ->
    exists n more rs, told' = told ++ more /\ bw_run t b (map WWriteAll (firstn n frags)) = (b', more, rs) /\
      match r with Ret _ => firstn n frags = frags /\ Forall (fun x => x = Ret tt) rs | r => exists rs0, rs = rs0 ++ [r] /\ Forall (fun x => x = Ret tt) rs0 end.
  Proof.
    induction frags as [|x frags IH]; intros b told b' told' r E; cbn [bw_write_fmt] in E.
    { injection E as <- <- <-. exists 0%nat, [], []. rewrite app_nil_r. cbn. auto. }
    destruct (bw_write_all t b x) as [[b1 tl] r1] eqn:Ew.
    assert (Step : bw_step t b (WWriteAll x) = (b1, tl, r1)) by exact Ew.
    destruct r1 as [[]| | | |].
    2-5: injection E as <- <- <-; exists 1%nat, tl; cbn [firstn map bw_run]; rewrite Step, ?app_nil_r;
      (eexists; split; [reflexivity|]); (split; [reflexivity|]); (exists []; split; [reflexivity|constructor]).
    destruct (IH _ _ _ _ _ E) as (n & more & rs & -> & R & F). exists (S n), (tl ++ more), (Ret tt :: rs). rewrite <- app_assoc. split; [reflexivity|].
    cbn [firstn map bw_run]. rewrite Step, R. split; [reflexivity|]. destruct r; [destruct F as (F1 & F2); rewrite F1; auto|..];
      (destruct F as (rs0 & -> & F); exists (Ret tt :: rs0); split; [reflexivity|constructor; auto]).
  Qed.
End H.

(** ** What comes out. *)
Section R.
  Variable t : target.
  Hypothesis Hbits : 32 <= t_bits t <= 64.
  Variable cap : Z.
  Hypothesis Hcap : 0 < cap.
  Hypothesis Hword : 2 * cap < 2 ^ t_bits t.
  Variable src0 : bytes.
  Hypothesis Hpos : pos_ok t cap (zlen src0).
  Notation bi := (bi t cap src0).

  Lemma bi_stream b out data free b' s data' free' : bi b out data free -> bi b' (out ++ s) data' free' ->
    s ++ data' ++ rs_src (br_src b') = data ++ rs_src (br_src b).
  Proof.
    intros (T & R & _ & _ & _ & _ & _ & _ & Hx) (T1 & R1 & _ & _ & _ & _ & _ & _ & Hx1).
    rewrite <- Hx in Hx1. rewrite <- app_assoc in Hx1. apply app_inv_head in Hx1. exact Hx1.
  Qed.
  Lemma bi_fuel b out data free : bi b out data free -> r_len (br_ring b) = cap /\ (length data <= Z.to_nat cap)%nat.
  Proof.
    intro H. pose proof (bi_lens t Hbits cap src0 _ _ _ _ H) as L. destruct H as (T & R & _ & _ & _ & HL & _).
    split; [exact HL|]. pose proof (zlen_nonneg free). unfold zlen in *. lia.
  Qed.

  Lemma until_full b out data free c b' s r : bi b out data free -> br_read_until t b c = (b', s, r) ->
    exists data' free', bi b' (out ++ s) data' free' /\
      match r with
      | Ret _ => flowed (br_src b) (br_src b') /\
                 ((exists l, s = l ++ [c] /\ ~ In c l) \/ (~ In c s /\ data' = [] /\ ran_dry (br_src b) (br_src b')))
      | Err e => ~ In c s /\ broke (br_src b) (br_src b') e
      | Panic => ~ In c s /\ blew (br_src b) (br_src b')
      | Blocked => ~ In c s /\ rs_script (br_src b') = []
      | Fault => False
      end.
  Proof.
    intros B E. unfold br_read_until in E. pose proof B as B0. rewrite <- (app_nil_r out) in B0.
    destruct (until_spec t Hbits cap Hcap Hword src0 Hpos (2 * length (rs_script (br_src b)) + 3) b c out [] data free B0)
      as (b1 & acc1 & data1 & free1 & r1 & E1 & B1 & _ & M); [intros []|].
    rewrite E1 in E. injection E as -> -> ->. exists data1, free1. split; [exact B1|].
    pose proof (until_why t Hbits cap Hcap Hword src0 Hpos _ _ _ _ _ _ _ _ _ _ B0 (fun x : In c [] => x) E1) as Y.
    destruct r; cbn [why] in Y.
    - destruct Y as (Y1 & Y2). split; [exact Y1|]. destruct M as [M|(M1 & M2 & _)]; auto.
    - destruct M as (M1 & _). auto.
    - auto.
    - exact M.
    - destruct M as (M1 & M2). split; [exact M1|]. apply M2. unfold until_measure. destruct (_ <? _); lia.
  Qed.

  (** One [read] with room for something. *)
  Lemma read_full b out data free n b' d r : bi b out data free -> 0 < n -> br_read t b n = (b', d, r) ->
    exists data' free',
      match r with
      | Ret k => k = zlen d /\ bi b' (out ++ d) data' free' /\ flowed (br_src b) (br_src b') /\
                 (d = [] -> data' = [] /\ ran_dry (br_src b) (br_src b')) /\
                 (length (rs_script (br_src b')) + length data' + length (rs_src (br_src b')) < length (rs_script (br_src b)) + length data + length (rs_src (br_src b)))%nat
      | Err e => bi b' out data' free' /\ (exists x, rs_script (br_src b) = RFail x e :: rs_script (br_src b')) /\
                 (length data' + length (rs_src (br_src b')) = length data + length (rs_src (br_src b)))%nat
      | Panic => bi b' out data' free' /\ blew (br_src b) (br_src b')
      | Blocked => bi b' out data' free' /\ rs_script (br_src b') = []
      | Fault => False
      end.
  Proof.
    intros B Hn E. pose proof (read_one t Hbits cap Hcap Hword src0 Hpos _ _ _ _ _ _ _ _ B Hn E) as O.
    pose proof (read_progress t Hbits cap Hcap Hword src0 Hpos _ _ _ _ _ _ _ _ B Hn E) as Pr.
    destruct (read_spec t Hbits cap Hcap Hword src0 Hpos b out data free n B ltac:(lia)) as (b1 & data1 & free1 & d1 & r1 & E1 & _ & M & C).
    rewrite E1 in E. injection E as -> -> ->. exists data1, free1.
    destruct r as [k|e| | |]; cbn [one] in O.
    - destruct M as (-> & B1). destruct O as (O1 & O2). split; [reflexivity|]. split; [exact B1|]. split; [exact O1|].
      pose proof (bi_stream _ _ _ _ _ _ _ _ B B1) as St. split.
      + intros ->. split; [|apply O2; reflexivity]. destruct C as [(_ & _ & X & _)|(_ & b2 & r2 & Ef & _ & C)]; [exact X|].
        destruct r2 as [av| | | |]; [|destruct C as (_ & C); discriminate C|destruct C as (_ & C); discriminate C|contradiction C|destruct C as (_ & C); discriminate C].
        destruct C as (C1 & -> & _). assert (L : zlen (ztake n av) = 0) by (rewrite <- C1; reflexivity). rewrite zlen_ztake in L by lia.
        assert (av = []) as -> by (apply zlen_0; pose proof (zlen_nonneg av); lia). unfold zdrop. apply skipn_nil.
      + apply (f_equal (@length Z)) in St. rewrite !app_length in St.
        destruct Pr as [(a & Pa)|(Ps & [(k & Pk0 & Pk)|(Pb & _)])]; [rewrite Pa; cbn [length]; lia| |discriminate Pb].
        injection Pk0 as <-. rewrite Ps. unfold zlen in Pk. lia.
    - split; [exact M|]. split; [exact O|]. rewrite <- (app_nil_r out) in M. pose proof (bi_stream _ _ _ _ _ _ _ _ B M) as St.
      apply (f_equal (@length Z)) in St. rewrite !app_length in St. cbn [length] in St. lia.
    - auto.
    - exact M.
    - split; [exact M|]. destruct Pr as [(a & Pa)|(_ & [(k & Pk & _)|(_ & Pb)])]; [|discriminate Pk|exact Pb].
      (* an answer was used although the call did not return *)
      exfalso. destruct C as [(_ & _ & _ & ES)|(_ & b2 & r2 & Ef & Es & C)].
      + unfold src_read in ES. rewrite Pa in ES. destruct a; discriminate ES.
      + destruct r2; try (destruct C as (_ & C); discriminate C); [destruct C as (_ & _ & C); discriminate C|contradiction C|].
        destruct (fill_spec t Hbits cap Hcap Hword src0 Hpos _ _ _ _ B) as (b3 & data3 & free3 & r3 & E3 & _ & _ & C3).
        rewrite Ef in E3. injection E3 as <- <-. destruct C3 as [(_ & _ & _ & X)|(_ & d3 & res & ES & M3)]; [discriminate X|].
        destruct res as [k|e| | |]; try (destruct M3 as (_ & M3); discriminate M3); [destruct M3 as (_ & _ & M3); discriminate M3|contradiction M3|].
        unfold src_read in ES. rewrite Pa in ES. destruct a; discriminate ES.
  Qed.

  Lemma to_end_spec sizes (Hs : forall i, 0 < sizes i) fuel : forall b out acc data free b' acc' r, bi b (out ++ acc) data free ->
    br_to_end_loop t fuel sizes b acc = (b', acc', r) ->
    exists data' free', bi b' (out ++ acc') data' free' /\
      match r with
      | Ret _ => data' = [] /\ ran_dry (br_src b) (br_src b')
      | Err e => broke (br_src b) (br_src b') e
      | Panic => blew (br_src b) (br_src b')
      | Blocked => (length (rs_script (br_src b)) + length data + length (rs_src (br_src b)) < fuel)%nat -> rs_script (br_src b') = []
      | Fault => False
      end.
  Proof.
    induction fuel as [|f IH]; intros b out acc data free b' acc' r B E; cbn [br_to_end_loop] in E.
    { injection E as <- <- <-. exists data, free. split; [exact B|]. lia. }
    destruct (br_read t b (sizes f)) as [[b1 d] r1] eqn:Er.
    destruct (read_full _ _ _ _ _ _ _ _ B (Hs f) Er) as (data1 & free1 & M). destruct r1 as [k|e| | |].
    - destruct M as (-> & B1 & Fl & Dry & Ms). rewrite ztake_all in E by lia. destruct (Z.eqb_spec (zlen d) 0) as [Hd|Hd].
      + injection E as <- <- <-. apply zlen_0 in Hd. subst d. rewrite app_nil_r in B1. exists data1, free1. split; [exact B1|]. apply Dry. reflexivity.
      + rewrite <- app_assoc in B1. destruct (IH _ _ _ _ _ _ _ _ B1 E) as (data2 & free2 & B2 & M2). exists data2, free2. split; [exact B2|].
        destruct r.
        * destruct M2 as (-> & M2). split; [reflexivity|]. eapply dry_after; eauto.
        * eapply broke_after; eauto.
        * eapply blew_after; eauto.
        * exact M2.
        * intro L. apply M2. lia.
    - destruct M as (B1 & (x & Hx) & Ms). assert (Ls : (length (rs_script (br_src b)) = S (length (rs_script (br_src b1))))%nat) by (rewrite Hx; reflexivity).
      destruct (io_kind_of e) eqn:Ek; try (injection E as <- <- <-; exists data1, free1; split; [exact B1|]; eapply one_broke; [exact Hx|rewrite Ek; discriminate]).
      destruct (IH _ _ _ _ _ _ _ _ B1 E) as (data2 & free2 & B2 & M2). exists data2, free2. split; [exact B2|].
      pose proof (one_goes _ _ _ _ Hx Ek) as Fl. destruct r.
      * destruct M2 as (-> & M2). split; [reflexivity|]. eapply dry_after; eauto.
      * eapply broke_after; eauto.
      * eapply blew_after; eauto.
      * exact M2.
      * intro L. apply M2. lia.
    - injection E as <- <- <-. exists data1, free1. exact M.
    - contradiction M.
    - injection E as <- <- <-. exists data1, free1. destruct M as (M1 & M2). auto.
  Qed.

  Lemma steady_after s s' : flowed s s' -> Forall steady (rs_script s) -> Forall steady (rs_script s').
  Proof. intros (u & E & _) F. rewrite E in F. apply Forall_app in F. apply F. Qed.
  Lemma dry_steady s s' : ran_dry s s' -> Forall steady (rs_script s) -> rs_src s' = [].
  Proof.
    intros (u & k & E & _ & [Hk|H]) F; [|exact H]. rewrite E in F. apply Forall_app in F. destruct F as (_ & F). inversion F as [|? ? X]; subst. cbn in X. lia.
  Qed.
  Lemma dry_flowed s s' : ran_dry s s' -> flowed s s'.
  Proof. intros (u & k & E & F & _). exists (u ++ [Give k]). rewrite <- app_assoc. split; [exact E|]. apply Forall_app. split; [exact F|repeat constructor]. Qed.

  (** Items so far: [acc] is made of terminated pieces, or the stream is over. *)
  Definition sofar (c : byte) (acc : bytes) (ps : list bytes) (over : Prop) : Prop :=
    Forall (fun p => ~ In c p) ps /\
    (acc = flat_map (fun p => p ++ [c]) ps \/ (over /\ exists ps' z, ps = ps' ++ [z] /\ z <> [] /\ acc = flat_map (fun p => p ++ [c]) ps' ++ z)).
  Lemma sofar_pieces c acc ps over : sofar c acc ps over -> pieces c acc ps.
  Proof. intros (F & [H|(_ & H)]); (split; [exact F|]); auto. Qed.

  Lemma cut_snoc d p : cut_last d (p ++ [d]) = p.
  Proof. unfold cut_last. rewrite rev_app_distr. cbn. rewrite Z.eqb_refl. apply rev_involutive. Qed.
  Lemma cut_none d p : ~ In d p -> cut_last d p = p.
  Proof.
    intros N. unfold cut_last. destruct (rev p) as [|b r] eqn:E; [rewrite <- (rev_involutive p), E; reflexivity|].
    destruct (Z.eqb_spec b d) as [->|]; [|reflexivity]. exfalso. apply N. apply in_rev. rewrite E. left. reflexivity.
  Qed.

  Lemma split_spec c fuel : forall b out acc ps data free b' acc' ps' r, bi b (out ++ acc) data free -> Forall steady (rs_script (br_src b)) ->
    sofar c acc ps (data = [] /\ rs_src (br_src b) = []) ->
    br_split_loop t fuel b c acc ps = (b', acc', ps', r) ->
    exists data' free', bi b' (out ++ acc') data' free' /\
      match r with
      | Ret _ => pieces c acc' ps' /\ data' = [] /\ rs_src (br_src b') = [] /\ ran_dry (br_src b) (br_src b')
      | Err e => (exists s0 lost, acc' = s0 ++ lost /\ ~ In c lost /\ pieces c s0 ps') /\ broke (br_src b) (br_src b') e
      | Panic => (exists s0 lost, acc' = s0 ++ lost /\ ~ In c lost /\ pieces c s0 ps') /\ blew (br_src b) (br_src b')
      | Blocked => (exists s0 lost, acc' = s0 ++ lost /\ ~ In c lost /\ pieces c s0 ps') /\
                   ((length data + length (rs_src (br_src b)) < fuel)%nat -> rs_script (br_src b') = [])
      | Fault => False
      end.
  Proof.
    induction fuel as [|f IH]; intros b out acc ps data free b' acc' ps' r B St Sf E; cbn [br_split_loop] in E.
    { injection E as <- <- <- <-. exists data, free. split; [exact B|]. split; [|lia]. exists acc, []. rewrite app_nil_r. split; [reflexivity|].
      split; [intros []|]. eapply sofar_pieces; eauto. }
    destruct (br_read_until t b c) as [[b1 s] r1] eqn:Eu. destruct (until_full _ _ _ _ _ _ _ _ B Eu) as (data1 & free1 & B1 & M).
    pose proof (bi_stream _ _ _ _ _ _ _ _ B B1) as Sm. rewrite <- app_assoc in B1.
    assert (Stop : ~ In c s -> exists s0 lost, acc ++ s = s0 ++ lost /\ ~ In c lost /\ pieces c s0 ps).
    { intro N. exists acc, s. split; [reflexivity|]. split; [exact N|]. eapply sofar_pieces; eauto. }
    destruct r1 as [u|e| | |].
    2:{ injection E as <- <- <- <-. exists data1, free1. split; [exact B1|]. destruct M as (M1 & M2). split; [apply Stop, M1|exact M2]. }
    2:{ injection E as <- <- <- <-. exists data1, free1. split; [exact B1|]. destruct M as (M1 & M2). split; [apply Stop, M1|exact M2]. }
    2:{ contradiction M. }
    2:{ injection E as <- <- <- <-. exists data1, free1. split; [exact B1|]. destruct M as (M1 & M2). split; [apply Stop, M1|intros _; exact M2]. }
    destruct M as (Fl & M). pose proof (steady_after _ _ Fl St) as St1. destruct s as [|x s].
    { injection E as <- <- <- <-. exists data1, free1. rewrite app_nil_r in B1. split; [exact B1|]. split; [eapply sofar_pieces; eauto|].
      destruct M as [(l & X & _)|(_ & -> & Dry)]; [destruct l; discriminate X|]. split; [reflexivity|]. split; [eapply dry_steady; eauto|exact Dry]. }
    set (p := x :: s) in *. assert (Hp : p <> []) by discriminate. clearbody p.
    assert (Sf1 : sofar c (acc ++ p) (ps ++ [cut_last c p]) (data1 = [] /\ rs_src (br_src b1) = [])).
    { destruct Sf as (F & [->|((-> & X) & _)]).
      2:{ rewrite X in Sm. cbn [app] in Sm. apply app_eq_nil in Sm. destruct Sm as (Sm & _). contradiction. }
      destruct M as [(l & -> & N)|(N & -> & Dry)].
      - rewrite cut_snoc. split; [apply Forall_app; split; [exact F|repeat constructor; exact N]|]. left. rewrite flat_map_app. cbn. rewrite app_nil_r. reflexivity.
      - rewrite (cut_none _ _ N). split; [apply Forall_app; split; [exact F|repeat constructor; exact N]|]. right. split; [split; [reflexivity|eapply dry_steady; eauto]|].
        exists ps, p. auto. }
    destruct (IH _ _ _ _ _ _ _ _ _ _ B1 St1 Sf1 E) as (data2 & free2 & B2 & M2). exists data2, free2. split; [exact B2|].
    apply (f_equal (@length Z)) in Sm. rewrite !app_length in Sm. assert (Hl : (0 < length p)%nat) by (destruct p; [contradiction|cbn; lia]).
    destruct r.
    - destruct M2 as (M2 & -> & M3 & M4). split; [exact M2|]. split; [reflexivity|]. split; [exact M3|]. eapply dry_after; eauto.
    - destruct M2 as (M2 & M3). split; [exact M2|]. eapply broke_after; eauto.
    - destruct M2 as (M2 & M3). split; [exact M2|]. eapply blew_after; eauto.
    - exact M2.
    - destruct M2 as (M2 & M3). split; [exact M2|]. intro L. apply M3. lia.
  Qed.

  (** Lines. *)
  Definition lines_sofar (acc : bytes) (ls : list bytes) (over : Prop) : Prop :=
    exists ps qs z, acc = flat_map (fun p => p ++ [10]) ps ++ z /\ Forall (fun p => ~ In 10 p) (ps ++ [z]) /\ Forall2 chomped ps qs /\
      ls = qs ++ (match z with [] => [] | _ => [z] end) /\ (z = [] \/ over).
  Lemma lines_sofar_of acc ls over : lines_sofar acc ls over -> lines_of acc ls.
  Proof. intros (ps & qs & z & H1 & H2 & H3 & H4 & _). exists ps, qs, z. auto. Qed.
  Lemma cut_chomped (p : bytes) : chomped p (cut_last 13 p).
  Proof.
    unfold chomped, cut_last. destruct (rev p) as [|b r] eqn:E.
    - right. assert (p = []) as -> by (rewrite <- (rev_involutive p), E; reflexivity). split; [reflexivity|]. intros [|y x]; discriminate.
    - assert (Hp : p = rev r ++ [b]) by (rewrite <- (rev_involutive p), E; reflexivity).
      destruct (Z.eqb_spec b 13) as [->|Hb]; [left; exact Hp|right]. split; [reflexivity|].
      intros x X. rewrite Hp in X. apply app_inj_tail in X. destruct X as (_ & X). contradiction.
  Qed.
  Lemma cut_line_snoc p : cut_line (p ++ [10]) = cut_last 13 p.
  Proof. unfold cut_line. rewrite rev_app_distr. cbn [rev app]. rewrite rev_involutive. reflexivity. Qed.
  Lemma cut_line_none (p : bytes) : ~ In 10 p -> cut_line p = p.
  Proof.
    intros N. unfold cut_line. destruct (@rev byte p) as [|b r] eqn:E.
    - destruct p as [|x p]; [reflexivity|]. exfalso. cbn [rev] in E. apply app_eq_nil in E. destruct E as (_ & E). discriminate E.
    - destruct (Z.eqb_spec b 10) as [->|]; [|reflexivity]. exfalso. apply N. apply in_rev. change (In 10 (@rev byte p)). rewrite E. left. reflexivity.
  Qed.

  (** How collecting lines ended: an item that is not UTF-8 is an error of its own. *)
  Lemma lines_spec valid fuel : forall b out acc ls data free b' acc' ls' r, bi b (out ++ acc) data free -> Forall steady (rs_script (br_src b)) ->
    lines_sofar acc ls (data = [] /\ rs_src (br_src b) = []) ->
    br_lines_loop t valid fuel b acc ls = (b', acc', ls', r) ->
    exists data' free', bi b' (out ++ acc') data' free' /\
      match r with
      | Ret _ => lines_of acc' ls' /\ data' = [] /\ rs_src (br_src b') = [] /\ ran_dry (br_src b) (br_src b')
      | Err e => (exists s0 bad, acc' = s0 ++ bad /\ lines_of s0 ls' /\
                   (broke (br_src b) (br_src b') e \/ (valid bad = false /\ io_kind_of e = OtherKind (-2) /\ flowed (br_src b) (br_src b'))))
      | Panic => blew (br_src b) (br_src b')
      | Blocked => (length data + length (rs_src (br_src b)) < fuel)%nat -> rs_script (br_src b') = []
      | Fault => False
      end.
  Proof.
    induction fuel as [|f IH]; intros b out acc ps data free b' acc' ps' r B St Sf E; cbn [br_lines_loop] in E.
    { injection E as <- <- <- <-. exists data, free. split; [exact B|]. lia. }
    unfold br_read_line in E.
    destruct (br_read_until t b 10) as [[b1 s] r1] eqn:Eu. destruct (until_full _ _ _ _ _ _ _ _ B Eu) as (data1 & free1 & B1 & M).
    pose proof (bi_stream _ _ _ _ _ _ _ _ B B1) as Sm. rewrite <- app_assoc in B1.
    destruct r1 as [u|e| | |]; cbn [to_string] in E.
    2:{ injection E as <- <- <- <-. exists data1, free1. split; [exact B1|]. destruct M as (M1 & M2). exists acc, s. split; [reflexivity|]. split; [eapply lines_sofar_of; eauto|left; exact M2]. }
    2:{ injection E as <- <- <- <-. exists data1, free1. split; [exact B1|]. apply M. }
    2:{ contradiction M. }
    2:{ injection E as <- <- <- <-. exists data1, free1. split; [exact B1|]. destruct M as (M1 & M2). intros _. exact M2. }
    destruct M as (Fl & M). pose proof (steady_after _ _ Fl St) as St1. destruct (valid s) eqn:Ev.
    2:{ injection E as <- <- <- <-. exists data1, free1. split; [exact B1|]. exists acc, s. split; [reflexivity|]. split; [eapply lines_sofar_of; eauto|]. right. auto. }
    destruct s as [|x s].
    { injection E as <- <- <- <-. exists data1, free1. rewrite app_nil_r in B1. split; [exact B1|]. split; [eapply lines_sofar_of; eauto|].
      destruct M as [(l & X & _)|(_ & -> & Dry)]; [destruct l; discriminate X|]. split; [reflexivity|]. split; [eapply dry_steady; eauto|exact Dry]. }
    set (p := x :: s) in *. assert (Hp : p <> []) by discriminate. clearbody p.
    assert (Sf1 : lines_sofar (acc ++ p) (ps ++ [cut_line p]) (data1 = [] /\ rs_src (br_src b1) = [])).
    { destruct Sf as (ps0 & qs & z & -> & F & Ch & -> & [->|(-> & X)]).
      2:{ rewrite X in Sm. cbn [app] in Sm. apply app_eq_nil in Sm. destruct Sm as (Sm & _). contradiction. }
      rewrite !app_nil_r. apply Forall_app in F. destruct F as (F & _).
      destruct M as [(l & -> & N)|(N & -> & Dry)].
      - rewrite cut_line_snoc. exists (ps0 ++ [l]), (qs ++ [cut_last 13 l]), []. rewrite flat_map_app. cbn [flat_map app]. rewrite !app_nil_r.
        split; [reflexivity|]. split; [apply Forall_app; split; [apply Forall_app; split; [exact F|repeat constructor; exact N]|repeat constructor; intros []]|].
        split; [apply Forall2_app; [exact Ch|constructor; [apply cut_chomped|constructor]]|]. auto.
      - rewrite (cut_line_none _ N). exists ps0, qs, p. split; [reflexivity|]. split; [apply Forall_app; split; [exact F|repeat constructor; exact N]|].
        split; [exact Ch|]. split; [destruct p; [contradiction|reflexivity]|]. right. split; [reflexivity|eapply dry_steady; eauto]. }
    destruct (IH _ _ _ _ _ _ _ _ _ _ B1 St1 Sf1 E) as (data2 & free2 & B2 & M2). exists data2, free2. split; [exact B2|].
    apply (f_equal (@length Z)) in Sm. rewrite !app_length in Sm. assert (Hl : (0 < length p)%nat) by (destruct p; [contradiction|cbn; lia]).
    destruct r.
    - destruct M2 as (M2 & -> & M3 & M4). split; [exact M2|]. split; [reflexivity|]. split; [exact M3|]. eapply dry_after; eauto.
    - destruct M2 as (s0 & bad & M2 & M3 & [M4|(M4 & M5 & M6)]); exists s0, bad; (split; [exact M2|]); (split; [exact M3|]);
        [left; eapply broke_after; eauto|right; split; [exact M4|]; split; [exact M5|]; eapply flowed_trans; eauto].
    - eapply blew_after; eauto.
    - exact M2.
    - intro L. apply M2. lia.
  Qed.
End R.
