(** Proofs for BufReplaceSpec.v. *)
From Coq Require Import Lia Permutation.
From Verif Require Import Base ErrorModel RingSpec RingModel BufSpec BufModel SeqProofs RingTheorems RingClaims RingExactSpec BufReaderProofs BufWriterProofs
  BufDirectModel BufDirectSpec BufDirectProofs BufReplaceModel BufReplaceSpec.

Section Replace.
  Variable t : target.
  Hypothesis Hbits : 32 <= t_bits t <= 64.
  Variable cap : Z.
  Hypothesis Hcap : 0 < cap.
  Hypothesis Hword : 2 * cap < 2 ^ t_bits t.

  Lemma glue (d d1 d2 x y x' y' : bytes) : d ++ x = x' ++ d1 -> d1 ++ y = y' ++ d2 -> d ++ (x ++ y) = (x' ++ y') ++ d2.
  Proof. intros A B. rewrite app_assoc, A, <- !app_assoc, B. reflexivity. Qed.

  Lemma one (R : bytes -> bytes -> Prop) (d d1 x x' z : bytes) : z = [] -> R (d ++ x) (x' ++ d1) -> R (d ++ (x ++ z)) ((x' ++ z) ++ d1).
  Proof. intros ->. rewrite !app_nil_r. auto. Qed.

  (** The invariant of C44 with another source. *)
  Lemma bi_other src0 b out data free s : bi t cap src0 b out data free -> Forall honest (rs_script s) ->
    bi t cap (out ++ data ++ rs_src s) (br_with_src b s) out data free.
  Proof.
    intros (T & R & I & A & HT & L & Lw & _ & E) Hh. exists T, R. cbn [br_with_src br_ring br_src br_lowat].
    split; [exact I|]. split; [exact A|]. split; [|auto]. rewrite <- E, !zlen_app in HT. rewrite !zlen_app. lia.
  Qed.

  Lemma all_len_nonneg phs : 0 <= all_len phs.
  Proof. induction phs as [|ph phs IH]; cbn; [lia|]. pose proof (zlen_nonneg (rs_src (fst ph))). fold (all_len phs). lia. Qed.
  Lemma all_weight_nonneg phs : 0 <= all_weight phs.
  Proof. induction phs as [|ph phs IH]; cbn; [lia|]. pose proof (weights_nonneg t Hbits (snd ph)). fold (all_weight phs). lia. Qed.

  Lemma dr_sessions_law phs : forall src0 b out data free, bi t cap src0 b out data free -> pos_ok t cap (zlen src0 + all_len phs) ->
    Forall (fun ph => Forall honest (rs_script (fst ph)) /\ Forall (rcall_ok t) (snd ph)) phs ->
    exists b' xs data' free' src' out', dr_sessions t b phs = (b', xs) /\ bi t cap src' b' out' data' free' /\ Forall (fun r => r <> Fault) (ends xs) /\
      exists segss, every session_r phs xs segss /\ data ++ through direct_r phs segss = through direct_r phs (outputs xs) ++ data'.
  Proof.
    induction phs as [|[s os] phs IH]; intros src0 b out data free H Hp F.
    - exists b, [], data, free, src0, out. split; [reflexivity|]. split; [exact H|]. split; [constructor|]. exists []. cbn. rewrite app_nil_r. auto.
    - apply Forall_cons_iff in F as [[F1 F2] F]. cbn [fst snd] in F1, F2. cbn [dr_sessions].
      change (all_len ((s, os) :: phs)) with (zlen (rs_src s) + all_len phs) in Hp.
      pose proof (bi_other _ _ _ _ _ s H F1) as H0. pose proof (all_len_nonneg phs) as N0.
      assert (Le : zlen (out ++ data ++ rs_src s) <= zlen src0 + zlen (rs_src s)).
      { destruct H as (T & R & _ & _ & _ & _ & _ & _ & <-). rewrite !zlen_app. pose proof (zlen_nonneg (rs_src (br_src b))). lia. }
      assert (Hp0 : pos_ok t cap (zlen (out ++ data ++ rs_src s))) by (apply (pos_ok_mono t cap _ _ Hp); lia).
      destruct (dr_run_law t Hbits cap Hcap Hword os _ _ _ _ _ H0 Hp0 F2)
        as (b1 & outs & rs & data1 & free1 & src1 & out1 & E & H1 & L1 & G1 & segs & A1 & A2 & A3 & A4 & _).
      rewrite E. cbn [br_with_src br_src] in A2. destruct (dead rs).
      + exists b1, [(outs, rs, br_src b1)], data1, free1, src1, out1. split; [reflexivity|]. split; [exact H1|].
        split; [cbn; rewrite app_nil_r; exact G1|]. exists [segs]. cbn. split; [|destruct phs as [|[] ?]; cbn; rewrite !app_nil_r; exact A4].
        split; [split; auto|]. destruct phs; exact Logic.I.
      + destruct (IH src1 b1 out1 data1 free1 H1) as (b' & xs & data' & free' & src' & out' & E2 & H2 & G2 & segss & B1 & B2);
          [apply (pos_ok_mono t cap _ _ Hp); lia|exact F|].
        rewrite E2. exists b', ((outs, rs, br_src b1) :: xs), data', free', src', out'. split; [reflexivity|]. split; [exact H2|].
        split; [cbn; apply Forall_app; auto|]. exists (segs :: segss). cbn [every through outputs map fst snd].
        split; [split; [split; auto|exact B1]|]. exact (glue _ _ _ _ _ _ _ A4 B2).
  Qed.

  Theorem taken_over_law s0 m phs b xs : pos_ok t cap (all_len phs) -> Forall honest (rs_script s0) ->
    Forall (fun ph => Forall honest (rs_script (fst ph)) /\ Forall (rcall_ok t) (snd ph)) phs ->
    dr_sessions t (br_new s0 cap m) phs = (b, xs) ->
    Forall (fun r => r <> Fault) (ends xs) /\ exists buffered, br_buffer t b = Ret buffered /\ taken_over phs xs buffered.
  Proof.
    intros Hp Hh F E.
    pose proof (br_new_bi t Hbits cap Hcap Hword [] [] m [] (Forall_nil _)) as B0.
    pose proof (bi_other _ _ _ _ _ s0 B0 Hh) as B1.
    assert (Hx : exists b' xs' data' free' src' out', dr_sessions t (br_new s0 cap m) phs = (b', xs') /\ bi t cap src' b' out' data' free' /\ Forall (fun r => r <> Fault) (ends xs') /\
      exists segss, every session_r phs xs' segss /\ [] ++ through direct_r phs segss = through direct_r phs (outputs xs') ++ data').
    { assert (Same : dr_sessions t (br_new s0 cap m) phs = dr_sessions t (br_new {| rs_src := []; rs_script := []; rs_asked := [] |} cap m) phs \/ phs = []).
      { destruct phs as [|[s os] phs]; [auto|left; reflexivity]. }
      destruct Same as [->| ->].
      - exact (dr_sessions_law phs _ _ _ _ _ B0 Hp F).
      - do 6 eexists. split; [reflexivity|]. split; [exact B1|]. split; [constructor|]. exists []. cbn. auto. }
    destruct Hx as (b' & xs' & data' & free' & src' & out' & E' & H' & G & segss & A1 & A2). rewrite E in E'. injection E' as <- <-.
    split; [exact G|]. exists data'. split; [destruct (bi_ring t Hbits cap Hcap Hword _ _ _ _ _ H') as (_ & _ & Q); exact Q|]. exists segss. auto.
  Qed.

  (** ** Writer *)
  Lemma wi_other b data free T s : wi t cap b data free T -> Forall whonest (ws_script s) -> wi t cap (bw_with_sink b s) data free T.
  Proof. intros (R & I & A & L & _) H. exists R. cbn. auto. Qed.

  Lemma dw_sessions_law phs : forall b data free T, wi t cap b data free T -> BufWriterProofs.room t cap (T + all_weight phs) ->
    Forall (fun ph => Forall whonest (ws_script (fst ph))) phs ->
    exists b' xs data' free' T', dw_sessions t b phs = (b', xs) /\ wi t cap b' data' free' T' /\ Forall (fun r => r <> Fault) (ends xs) /\
      exists segss, every session_w phs xs segss /\
        Permutation (data ++ through direct_w phs (outputs xs)) (through direct_w phs segss ++ data') /\
        (no_exact_fits t b phs -> data ++ through direct_w phs (outputs xs) = through direct_w phs segss ++ data').
  Proof.
    induction phs as [|[s os] phs IH]; intros b data free T H Hp F.
    - exists b, [], data, free, T. split; [reflexivity|]. split; [exact H|]. split; [constructor|]. exists []. cbn. rewrite app_nil_r. auto.
    - apply Forall_cons_iff in F as [F1 F]. cbn [fst] in F1. cbn [dw_sessions].
      change (all_weight ((s, os) :: phs)) with (wcalls_weight os + all_weight phs) in Hp. pose proof (all_weight_nonneg phs) as N0.
      pose proof (wi_other _ _ _ _ s H F1) as H0.
      destruct (dw_run_law t Hbits cap Hcap Hword os _ _ _ _ H0) as (b1 & outs & rs & data1 & free1 & T1 & E & H1 & L1 & G1 & segs & A1 & A2 & A3 & A4 & A5 & _).
      { eapply (BufWriterProofs.room_le t Hbits); [exact Hp|lia]. }
      rewrite E. unfold thr in A4, A5. destruct (dead rs).
      + exists b1, [(outs, rs, bw_sink b1)], data1, free1, T1. split; [reflexivity|]. split; [exact H1|].
        split; [cbn; rewrite app_nil_r; exact G1|]. exists [segs]. cbn.
        assert (Z : forall X : list (list bytes), X = [] -> through direct_w phs X = []) by (intros X ->; destruct phs as [|[] ?]; reflexivity).
        split; [|split; [exact (one _ _ _ _ _ _ (Z [] eq_refl) A4)|intros [N _]; exact (one (@eq bytes) _ _ _ _ _ (Z [] eq_refl) (A5 N))]].
        split; [split; auto|]. destruct phs; exact Logic.I.
      + destruct (IH b1 data1 free1 T1 H1) as (b' & xs & data' & free' & T' & E2 & H2 & G2 & segss & B1 & B2 & B3);
          [eapply (BufWriterProofs.room_le t Hbits); [exact Hp|lia]|exact F|].
        rewrite E2. exists b', ((outs, rs, bw_sink b1) :: xs), data', free', T'. split; [reflexivity|]. split; [exact H2|].
        split; [cbn; apply Forall_app; auto|]. exists (segs :: segss). cbn [every through outputs map fst snd no_exact_fits].
        split; [split; [split; auto|exact B1]|]. split.
        * rewrite app_assoc. etransitivity; [apply Permutation_app_tail, A4|]. rewrite <- !app_assoc. apply Permutation_app_head, B2.
        * rewrite E. cbn [fst]. intros [N1 N2]. exact (glue _ _ _ _ _ _ _ (A5 N1) (B3 N2)).
  Qed.

  Theorem given_over_law s0 m phs b xs : BufWriterProofs.room t cap (all_weight phs) -> Forall whonest (ws_script s0) ->
    Forall (fun ph => Forall whonest (ws_script (fst ph))) phs ->
    dw_sessions t (bw_from_parts s0 (ring_make cap m)) phs = (b, xs) ->
    Forall (fun r => r <> Fault) (ends xs) /\ exists buffered, bw_buffer t b = Ret buffered /\
      given_over phs xs buffered (no_exact_fits t (bw_from_parts s0 (ring_make cap m)) phs).
  Proof.
    intros Hp Hh F E. destruct s0 as [log script calls].
    destruct (dw_sessions_law phs _ _ _ _ (bw_new_wi t Hbits cap Hcap Hword script log calls m Hh) Hp F)
      as (b' & xs' & data' & free' & T' & E' & H' & G & segss & A1 & A2 & A3).
    rewrite E in E'. injection E' as <- <-. split; [exact G|]. exists data'.
    split; [destruct (wi_ring t Hbits cap Hcap Hword _ _ _ _ H') as (_ & _ & _ & Q); exact Q|]. exists segss. auto.
  Qed.
End Replace.
