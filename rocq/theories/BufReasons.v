(** Why the reading loops of a buffered reader stop. *)
From Coq Require Import Lia.
From Verif Require Import Base ErrorModel RingSpec RingModel BufSpec BufModel SeqProofs SizeProofs
  RingProofs RingTheorems RingClaims BufReaderProofs.

Section R.
  Variable t : target.
  Hypothesis Hbits : 32 <= t_bits t <= 64.
  Variable cap : Z.
  Hypothesis Hcap : 0 < cap.
  Hypothesis Hword : 2 * cap < 2 ^ t_bits t.
  Variable src0 : bytes.
  Hypothesis Hpos : pos_ok t cap (zlen src0).
  Notation bi := (bi t cap src0).

  Lemma flowed_refl s s' : rs_script s = rs_script s' -> flowed s s'.
  Proof. intro E. exists []. split; [exact E|constructor]. Qed.
  Lemma flowed_cons s s1 s' a : rs_script s = a :: rs_script s1 -> flows a -> flowed s1 s' -> flowed s s'.
  Proof. intros E F (u & E1 & F1). exists (a :: u). rewrite E, E1. split; [reflexivity|constructor; assumption]. Qed.
  Lemma flowed_trans s s1 s' : flowed s s1 -> flowed s1 s' -> flowed s s'.
  Proof. intros (u & E & F) (v & E1 & F1). exists (u ++ v). rewrite E, E1, app_assoc. split; [reflexivity|apply Forall_app; auto]. Qed.
  Lemma dry_after s s1 s' : flowed s s1 -> ran_dry s1 s' -> ran_dry s s'.
  Proof. intros (u & E & F) (v & k & E1 & F1 & X). exists (u ++ v), k. rewrite E, E1, <- app_assoc. split; [reflexivity|]. split; [apply Forall_app; auto|exact X]. Qed.
  Lemma broke_after s s1 s' e : flowed s s1 -> broke s1 s' e -> broke s s' e.
  Proof. intros (u & E & F) (v & k & E1 & F1 & X). exists (u ++ v), k. rewrite E, E1, <- app_assoc. split; [reflexivity|]. split; [apply Forall_app; auto|exact X]. Qed.
  Lemma blew_after s s1 s' : flowed s s1 -> blew s1 s' -> blew s s'.
  Proof. intros (u & E & F) (v & k & E1 & F1). exists (u ++ v), k. rewrite E, E1, <- app_assoc. split; [reflexivity|apply Forall_app; auto]. Qed.

  (** One call of the inner reader. *)
  Definition one (s s' : rsource) {A} (r : out io_error A) (dry : Prop) : Prop :=
    match r with
    | Ret _ => flowed s s' /\ (dry -> ran_dry s s')
    | Err e => exists x, rs_script s = RFail x e :: rs_script s'
    | Panic => blew s s'
    | _ => True
    end.
  Lemma src_one n s s' d r : 0 < n -> Forall honest (rs_script s) -> src_read n s = (s', d, r) -> one s s' r (d = []).
  Proof.
    intros Hn Hh E. destruct (src_read_spec n s s' d r ltac:(lia) Hh E) as (_ & _ & [(S0 & -> & -> & ->)|(a & Sa & _ & [(k & -> & Hs & -> & Hd)|[(x & e & -> & _ & ->)|(x & -> & _ & ->)]])]).
    - exact Logic.I.
    - cbn [one]. split; [exists [Give k]; split; [exact Sa|repeat constructor]|]. intros ->. exists [], k. split; [exact Sa|]. split; [constructor|].
      destruct (Z.le_gt_cases k 0) as [Hk|Hk]; [left; exact Hk|right]. cbn [app] in Hs. rewrite <- Hs.
      apply zlen_0. pose proof (zlen_nonneg (rs_src s)). assert (L : zlen (ztake (Z.min k n) (rs_src s)) = 0) by (rewrite <- Hd; reflexivity).
      rewrite zlen_ztake in L by lia. lia.
    - exists x. exact Sa.
    - exists [], x. split; [exact Sa|constructor].
  Qed.
  Lemma fill_one b out data free b' r : bi b out data free -> br_fill_buf t b = (b', r) -> one (br_src b) (br_src b') r (r = Ret []).
  Proof.
    intros H E. destruct (fill_spec t Hbits cap Hcap Hword src0 Hpos _ _ _ _ H) as (b1 & data1 & free1 & r1 & E1 & Bi1 & Lw & C).
    rewrite E1 in E. injection E as -> ->. pose proof (bi_lens t Hbits cap src0 _ _ _ _ H) as HL.
    assert (Hlw : 0 <= br_lowat b /\ Forall honest (rs_script (br_src b))) by (destruct H as (? & ? & _ & _ & _ & _ & Hx & Hy & _); auto).
    destruct C as [(Hl & -> & _ & ->)|(Hl & d & res & ES & M)].
    - cbn [one]. split; [apply flowed_refl; reflexivity|]. intros [= ->]. cbn in Hl. lia.
    - destruct (Z.eq_dec (zlen free) 0) as [Hz|Hz].
      + (* a full buffer: the inner reader is asked for nothing *)
        assert (Hne : r <> Ret []).
        { intros ->. destruct res; try (destruct M as (_ & M); discriminate M); [|contradiction M|destruct M as (_ & _ & M); discriminate M].
          destruct M as (_ & -> & M). injection M as M. symmetry in M. apply app_eq_nil in M. destruct M as [-> ->]. cbn in HL. lia. }
        destruct (src_read_spec _ _ _ _ _ (zlen_nonneg free) (proj2 Hlw) ES) as (_ & _ & [(S0 & Hs & _ & ->)|(a & Sa & _ & [(k & -> & _ & -> & _)|[(x & e & -> & _ & ->)|(x & -> & _ & ->)]])]).
        * destruct M as (_ & _ & ->). exact Logic.I.
        * destruct M as (_ & _ & ->). cbn [one]. split; [exists [Give k]; split; [exact Sa|repeat constructor]|contradiction].
        * destruct M as (_ & ->). exists x. exact Sa.
        * destruct M as (_ & ->). exists [], x. split; [exact Sa|constructor].
      + pose proof (zlen_nonneg free). pose proof (src_one (zlen free) _ _ _ _ ltac:(lia) (proj2 Hlw) ES) as O.
        destruct res as [k|e| | |]; [|destruct M as (_ & ->); exact O|destruct M as (_ & ->); exact O|contradiction M|destruct M as (_ & _ & ->); exact Logic.I].
        destruct M as (_ & -> & ->). destruct O as (O1 & O2). split; [exact O1|]. intros [= X]. apply app_eq_nil in X. apply O2, X.
  Qed.
  Lemma read_one b out data free n b' d r : bi b out data free -> 0 < n -> br_read t b n = (b', d, r) -> one (br_src b) (br_src b') r (d = []).
  Proof.
    intros H Hn E. destruct (read_spec t Hbits cap Hcap Hword src0 Hpos b out data free n H ltac:(lia)) as (b1 & data1 & free1 & d1 & r1 & E1 & Lw & M & C).
    rewrite E1 in E. injection E as -> -> ->. destruct C as [(-> & Hcn & _ & ES)|(Hor & b1 & r1 & Ef & Es & C)].
    - apply (src_one n); [exact Hn| |exact ES]. destruct H as (? & ? & _ & _ & _ & _ & _ & Hy & _). exact Hy.
    - rewrite Es. pose proof (fill_one _ _ _ _ _ _ H Ef) as O. destruct r1 as [av|e| | |]; [|destruct C as (_ & ->); exact O|destruct C as (_ & ->); exact O|contradiction C|destruct C as (_ & ->); exact Logic.I].
      destruct C as (-> & _ & ->). destruct O as (O1 & O2). split; [exact O1|]. intro X. apply O2. f_equal. apply zlen_0.
      assert (L : zlen (ztake n av) = 0) by (rewrite X; reflexivity). rewrite zlen_ztake in L by lia. pose proof (zlen_nonneg av). lia.
  Qed.

  Definition why {A} (s s' : rsource) (r : out io_error A) (dry : Prop) : Prop :=
    match r with
    | Ret _ => flowed s s' /\ (dry -> ran_dry s s')
    | Err e => broke s s' e
    | Panic => blew s s'
    | _ => True
    end.
  Lemma why_after {A} s s1 s' (r : out io_error A) dry : flowed s s1 -> why s1 s' r dry -> why s s' r dry.
  Proof.
    intros F. destruct r; cbn [why].
    - intros (X & Y). split; [eapply flowed_trans; eauto|]. intro D. eapply dry_after; eauto.
    - apply broke_after, F.
    - apply blew_after, F.
    - auto.
    - auto.
  Qed.
  Lemma one_broke s s' x e : rs_script s = RFail x e :: rs_script s' -> io_kind_of e <> Interrupted -> broke s s' e.
  Proof. intros E N. exists [], x. split; [exact E|]. split; [constructor|exact N]. Qed.
  Lemma one_goes s s' x e : rs_script s = RFail x e :: rs_script s' -> io_kind_of e = Interrupted -> flowed s s'.
  Proof. intros E N. exists [RFail x e]. split; [exact E|]. constructor; [exact N|constructor]. Qed.

  Lemma until_why fuel : forall b c out acc data free b' acc' r, bi b (out ++ acc) data free -> ~ In c acc ->
    br_until_loop t fuel b c acc = (b', acc', r) -> why (br_src b) (br_src b') r (~ In c acc').
  Proof.
    induction fuel as [|f IH]; intros b c out acc data free b' acc' r H Hc E; cbn [br_until_loop] in E.
    { injection E as <- <- <-. exact Logic.I. }
    destruct (fill_spec t Hbits cap Hcap Hword src0 Hpos _ _ _ _ H) as (b1 & data1 & free1 & r1 & E1 & Bi1 & Lw & C).
    pose proof (fill_one _ _ _ _ _ _ H E1) as O. rewrite E1 in E. destruct r1 as [avail|e| | |].
    - assert (Hav : avail = data1).
      { destruct C as [(_ & -> & -> & Hr)|(_ & d & res & _ & M)]; [congruence|].
        destruct res; try (destruct M as (_ & M)); try discriminate M; try contradiction M.
        - destruct M as (_ & M). congruence.
        - destruct M as (_ & M). discriminate M. }
      subst avail. destruct O as (O1 & O2). destruct (find_byte c data1) as [k|] eqn:Ef.
      + destruct (find_some_split t Hbits _ _ _ Ef) as (Hk & p & Hp & Hnp).
        destruct (consume_spec t Hbits cap src0 _ _ _ _ (k + 1) Bi1) as (b2 & E2 & Bi2 & S2 & L2); [lia|]. rewrite E2 in E. injection E as <- <- <-.
        rewrite S2. cbn [why]. split; [exact O1|]. intro N. exfalso. apply N. rewrite Hp. apply in_or_app. right. apply in_or_app. right. left. reflexivity.
      + destruct (consume_spec t Hbits cap src0 _ _ _ _ (zlen data1) Bi1 (zlen_nonneg _)) as (b2 & E2 & Bi2 & S2 & L2). rewrite E2 in E.
        rewrite ztake_all, zdrop_all in Bi2 by lia. rewrite <- app_assoc in Bi2. pose proof (find_none _ _ Ef) as Hn.
        destruct (Z.eqb_spec (zlen data1) 0) as [Hz|Hz].
        * injection E as <- <- <-. apply zlen_0 in Hz. subst data1. rewrite S2. split; [exact O1|]. intros _. apply O2. reflexivity.
        * apply (why_after _ (br_src b1)); [exact O1|]. rewrite <- S2. refine (IH _ _ _ _ _ _ _ _ _ Bi2 _ E). intros Hin. apply in_app_or in Hin. tauto.
    - destruct O as (x & O).
      destruct (io_kind_of e) eqn:Ek; try (injection E as <- <- <-; apply (one_broke _ _ x); [exact O|congruence]).
      apply (why_after _ (br_src b1)); [exact (one_goes _ _ _ _ O Ek)|]. exact (IH _ _ _ _ _ _ _ _ _ Bi1 Hc E).
    - injection E as <- <- <-. exact O.
    - injection E as <- <- <-. exact Logic.I.
    - injection E as <- <- <-. exact Logic.I.
  Qed.

  (** [read_exact] reports an end of input as an error of its own. *)
  Definition why_exact {A} (s s' : rsource) (r : out io_error A) : Prop :=
    match r with
    | Ret _ => flowed s s'
    | Err e => (e = IoSimple UnexpectedEof /\ ran_dry s s') \/ broke s s' e
    | Panic => blew s s'
    | _ => True
    end.
  Lemma why_exact_after {A} s s1 s' (r : out io_error A) : flowed s s1 -> why_exact s1 s' r -> why_exact s s' r.
  Proof.
    intros F. destruct r; cbn [why_exact].
    - apply flowed_trans, F.
    - intros [(-> & X)|X]; [left; split; [reflexivity|eapply dry_after; eauto]|right; eapply broke_after; eauto].
    - apply blew_after, F.
    - auto.
    - auto.
  Qed.
  Lemma exact_why fuel : forall b n out acc data free b' acc' r, bi b (out ++ acc) data free -> 0 <= n ->
    br_exact_loop t fuel b n acc = (b', acc', r) -> why_exact (br_src b) (br_src b') r.
  Proof.
    induction fuel as [|f IH]; intros b n out acc data free b' acc' r H Hn E; cbn [br_exact_loop] in E; destruct (Z.leb_spec n 0) as [Hz|Hz].
    - injection E as <- <- <-. apply flowed_refl. reflexivity.
    - injection E as <- <- <-. exact Logic.I.
    - injection E as <- <- <-. apply flowed_refl. reflexivity.
    - destruct (read_spec t Hbits cap Hcap Hword src0 Hpos b _ data free n H Hn) as (b1 & data1 & free1 & d1 & r1 & E1 & Lw & M & C).
      pose proof (read_one _ _ _ _ _ _ _ _ H Hz E1) as O. rewrite E1 in E. destruct r1 as [k|e| | |]; try contradiction M.
      + destruct M as (-> & Bi1). destruct O as (O1 & O2). destruct (Z.eqb_spec (zlen d1) 0) as [Hd|Hd].
        * injection E as <- <- <-. left. split; [reflexivity|]. apply O2, zlen_0, Hd.
        * destruct (Z.ltb_spec n (zlen d1)) as [Hlt|Hlt].
          { exfalso. destruct C as [(_ & _ & _ & ES)|(_ & b2 & r2 & _ & _ & C)].
            - destruct H as (T & R & I & A & B & L & Hlw & Hh & Ho). destruct (src_read_spec _ _ _ _ _ Hn Hh ES) as (_ & Hx & _). lia.
            - destruct r2; try contradiction C; try (destruct C as (_ & C); discriminate C).
              destruct C as (-> & _). rewrite zlen_ztake in Hlt by lia. lia. }
          apply (why_exact_after _ (br_src b1)); [exact O1|]. rewrite <- app_assoc in Bi1. refine (IH _ _ _ _ _ _ _ _ _ Bi1 _ E). lia.
      + destruct O as (x & O).
        destruct (io_kind_of e) eqn:Ek; try (injection E as <- <- <-; right; apply (one_broke _ _ x); [exact O|congruence]).
        apply (why_exact_after _ (br_src b1)); [exact (one_goes _ _ _ _ O Ek)|]. exact (IH _ _ _ _ _ _ _ _ _ M Hn E).
      + injection E as <- <- <-. exact O.
      + injection E as <- <- <-. exact Logic.I.
  Qed.
End R.
