(** The programs of BufProgModel.v do what BufModel.v says. *)
From Coq Require Import Lia Permutation.
From Verif Require Import Base ErrorModel RingSpec RingModel BufSpec BufModel SeqProofs SizeProofs
  RingProofs RingTheorems RingClaims BufReaderProofs BufWriterProofs BufProgModel.

Section Ev.
  Variable t : target.

  (** A code run against a ring that is a value, every ring call legal and
      returning. *)
  Inductive evals {A} : ring -> code A -> ring -> A -> Prop :=
  | ev_pure r a : evals r (Pure a) r a
  | ev_len r (w : bool) k n r' a : (if w then ring_write_len t r else ring_read_len t r) = Ret n ->
      evals r (k n) r' a -> evals r (Len w k) r' a
  | ev_do r o k r1 x r' a : rop_ok t o -> ring_step t r o = Ret (r1, x) -> evals r1 (k x) r' a -> evals r (Do o k) r' a.

  Lemma evals_bind {A B} r (c : code A) r1 a : evals r c r1 a ->
    forall (f : A -> code B) r2 b, evals r1 (f a) r2 b -> evals r (cbind c f) r2 b.
  Proof.
    induction 1 as [r a|r w k n r' a E H IH|r o k r1 x r' a O E H IH]; intros f r2 b K; cbn [cbind].
    - exact K.
    - eapply ev_len; [exact E|]. apply IH, K.
    - eapply ev_do; [exact O|exact E|]. apply IH, K.
  Qed.
End Ev.

Section R.
  Variable t : target.
  Hypothesis Hbits : 32 <= t_bits t <= 64.
  Variable cap : Z.
  Hypothesis Hcap : 0 < cap.
  Hypothesis Hword : 2 * cap < 2 ^ t_bits t.
  Variable src0 : bytes.
  Hypothesis Hpos : pos_ok t cap (zlen src0).
  Let bi := bi t cap src0.

  Lemma umax_ok : is_usize t (umax t).
  Proof. unfold is_usize, umax. assert (2 ^ 32 <= 2 ^ t_bits t) by (apply Z.pow_le_mono_r; lia). lia. Qed.
  Lemma small_ok n : 0 <= n <= cap -> is_usize t n.
  Proof. unfold is_usize. lia. Qed.

  Lemma bi_wlen b out data free : bi b out data free -> ring_write_len t (br_ring b) = Ret (zlen free).
  Proof.
    intros (T & R & I & A & _ & L & _). rewrite (write_len_eq t Hbits _ _ _ I). f_equal.
    pose proof (absq_free_len t Hbits _ _ _ I) as H. rewrite A in H. cbn [q_free] in H. lia.
  Qed.
  Lemma peek_step b data : br_buffer t b = Ret data -> ring_step t (br_ring b) (RPeek (umax t)) = Ret (br_ring b, OBytes data).
  Proof. unfold br_buffer. intros E. cbn [ring_step]. rewrite E. reflexivity. Qed.
  Lemma consume_step b n b' : br_consume t b n = (b', Ret tt) -> ring_step t (br_ring b) (RConsume n) = Ret (br_ring b', OUnit).
  Proof.
    unfold br_consume, on_ring. cbn [ring_step]. destruct (ring_consume t (br_ring b) n); intros E; try discriminate E.
    injection E as <-. reflexivity.
  Qed.

  Lemma ev_fill b out data free b' r : bi b out data free -> br_fill_buf t b = (b', r) ->
    evals t (br_ring b) (c_fill t (br_lowat b) (br_src b)) (br_ring b') (br_src b', r).
  Proof.
    intros H E. pose proof (bi_lens t Hbits cap src0 _ _ _ _ H) as HL. pose proof (zlen_nonneg data) as Hd0. pose proof (zlen_nonneg free) as Hf0.
    destruct (fill_spec t Hbits cap Hcap Hword src0 Hpos _ _ _ _ H) as (b1 & data1 & free1 & r1 & E1 & Bi1 & _ & C).
    rewrite E in E1. injection E1 as <- <-.
    destruct (bi_ring t Hbits cap Hcap Hword src0 _ _ _ _ H) as (ERL & EWS & EB).
    destruct (bi_ring t Hbits cap Hcap Hword src0 _ _ _ _ Bi1) as (_ & _ & EB1).
    unfold br_fill_buf in E. rewrite ERL in E. cbn [sbind] in E. unfold c_fill.
    eapply ev_len; [exact ERL|]. cbv beta. destruct (Z.leb_spec (zlen data) (br_lowat b)) as [Hlow|Hlow].
    2:{ destruct C as [(_ & -> & _ & ->)|(Hx & _)]; [|lia].
        eapply ev_do; [exact umax_ok|apply peek_step; exact EB|]. apply ev_pure. }
    destruct C as [(Hx & _)|(_ & d & res & ES & M)]; [lia|].
    eapply ev_len; [apply (bi_wlen _ _ _ _ H)|]. cbv beta.
    replace (Z.min (zlen free) (umax t)) with (zlen free) by (unfold umax; lia). rewrite ES.
    rewrite EWS in E. cbn [sbind] in E. rewrite ES in E. cbn [br_with_src br_ring br_src br_lowat] in E.
    destruct (ring_slice_store t (br_ring b) (umax t) 0 d) as [r1|e| | |] eqn:E1.
    - eapply ev_do; [split; [exact umax_ok|unfold is_usize; lia]|cbn [ring_step]; rewrite E1; reflexivity|].
      cbn [on_ring sbind br_with_ring br_ring br_src br_lowat] in E. cbv beta.
      destruct res as [k|e| | |]; cbn [sbind] in E.
      + destruct M as (-> & -> & ->).
        assert (Hdl : zlen d <= zlen free).
        { destruct H as (T & R & I & A & B & L & Hlw & Hh & Ho). apply (src_read_spec _ _ _ _ _ Hf0 Hh ES). }
        pose proof (zlen_nonneg d).
        destruct (ring_feed t r1 (zlen d)) as [r2|e| | |] eqn:E2; cbn [on_ring sbind] in E.
        * injection E as E _. assert (Er : br_ring b' = r2) by (apply (f_equal br_ring) in E; symmetry; exact E).
          eapply ev_do; [apply small_ok; lia|cbn [ring_step]; rewrite E2; reflexivity|]. rewrite <- Er.
          eapply ev_do; [exact umax_ok|exact (peek_step _ _ EB1)|]. apply ev_pure.
        * discriminate E.
        * discriminate E.
        * discriminate E.
        * discriminate E.
      + injection E as E Er'. apply (f_equal br_ring) in E. cbn in E. rewrite E, <- Er'. apply ev_pure.
      + injection E as E Er'. apply (f_equal br_ring) in E. cbn in E. rewrite E, <- Er'. apply ev_pure.
      + contradiction M.
      + injection E as E Er'. apply (f_equal br_ring) in E. cbn in E. rewrite E, <- Er'. apply ev_pure.
    - exfalso. destruct H as (T & R & I & A & B & L & Hlw & Hh & Ho).
      destruct (src_read_spec _ _ _ _ _ Hf0 Hh ES) as (_ & Hdl & _). pose proof (absq_free_len t Hbits _ _ _ I) as HF. rewrite A in HF. cbn [q_free] in HF.
      destruct (slice_store_ok t Hbits _ _ _ I (umax t) 0 d) as (r1 & E1' & _); [unfold umax; lia|lia|unfold umax; lia|]. congruence.
    - exfalso. destruct H as (T & R & I & A & B & L & Hlw & Hh & Ho).
      destruct (src_read_spec _ _ _ _ _ Hf0 Hh ES) as (_ & Hdl & _). pose proof (absq_free_len t Hbits _ _ _ I) as HF. rewrite A in HF. cbn [q_free] in HF.
      destruct (slice_store_ok t Hbits _ _ _ I (umax t) 0 d) as (r1 & E1' & _); [unfold umax; lia|lia|unfold umax; lia|]. congruence.
    - exfalso. destruct H as (T & R & I & A & B & L & Hlw & Hh & Ho).
      destruct (src_read_spec _ _ _ _ _ Hf0 Hh ES) as (_ & Hdl & _). pose proof (absq_free_len t Hbits _ _ _ I) as HF. rewrite A in HF. cbn [q_free] in HF.
      destruct (slice_store_ok t Hbits _ _ _ I (umax t) 0 d) as (r1 & E1' & _); [unfold umax; lia|lia|unfold umax; lia|]. congruence.
    - exfalso. destruct H as (T & R & I & A & B & L & Hlw & Hh & Ho).
      destruct (src_read_spec _ _ _ _ _ Hf0 Hh ES) as (_ & Hdl & _). pose proof (absq_free_len t Hbits _ _ _ I) as HF. rewrite A in HF. cbn [q_free] in HF.
      destruct (slice_store_ok t Hbits _ _ _ I (umax t) 0 d) as (r1 & E1' & _); [unfold umax; lia|lia|unfold umax; lia|]. congruence.
  Qed.
  (** What [fill_buf] answers with is the buffer. *)
  Lemma fill_avail b out data free b' avail : bi b out data free -> br_fill_buf t b = (b', Ret avail) ->
    exists free', bi b' out avail free' /\ br_lowat b' = br_lowat b /\ zlen avail <= cap.
  Proof.
    intros H E. destruct (fill_spec t Hbits cap Hcap Hword src0 Hpos _ _ _ _ H) as (b1 & data1 & free1 & r1 & E1 & Bi1 & Lw & C).
    rewrite E in E1. injection E1 as <- <-. exists free1.
    assert (X : avail = data1).
    { destruct C as [(_ & -> & -> & [= ->])|(_ & d & res & _ & M)]; [reflexivity|]. destruct res as [k|e| | |]; try contradiction M.
      - destruct M as (_ & -> & [= ->]). reflexivity.
      - destruct M as (_ & M). discriminate M.
      - destruct M as (_ & M). discriminate M.
      - destruct M as (_ & _ & M). discriminate M. }
    subst data1. split; [exact Bi1|]. split; [exact Lw|]. pose proof (bi_lens t Hbits cap src0 _ _ _ _ Bi1). pose proof (zlen_nonneg free1). lia.
  Qed.
  Lemma fill_low b out data free b' r : bi b out data free -> br_fill_buf t b = (b', r) ->
    br_lowat b' = br_lowat b /\ r <> Fault /\ exists data' free', bi b' out data' free'.
  Proof.
    intros H E. destruct (fill_spec t Hbits cap Hcap Hword src0 Hpos _ _ _ _ H) as (b1 & data1 & free1 & r1 & E1 & Bi1 & Lw & C).
    rewrite E in E1. injection E1 as <- <-. split; [exact Lw|]. split; [|eauto].
    destruct C as [(_ & _ & _ & ->)|(_ & d & res & _ & M)]; [discriminate|]. destruct res as [k|e| | |]; try contradiction M.
    - destruct M as (_ & _ & ->). discriminate.
    - destruct M as (_ & ->). discriminate.
    - destruct M as (_ & ->). discriminate.
    - destruct M as (_ & _ & ->). discriminate.
  Qed.

  Lemma ev_read b out data free n b' d r : bi b out data free -> 0 <= n -> br_read t b n = (b', d, r) ->
    evals t (br_ring b) (c_read t cap (br_lowat b) (br_src b) n) (br_ring b') (br_src b', d, r).
  Proof.
    intros H Hn E. destruct (bi_ring t Hbits cap Hcap Hword src0 _ _ _ _ H) as (ERL & EWS & EB).
    assert (HC : r_len (br_ring b) = cap) by (destruct H as (? & ? & ? & ? & ? & ? & ?); assumption).
    unfold br_read in E. rewrite ERL in E. cbn [sbind] in E. unfold ring_write_capacity in E. rewrite HC in E.
    unfold c_read. eapply ev_len; [exact ERL|]. cbv beta. destruct ((zlen data =? 0) && (cap <=? n)) eqn:Hd.
    - destruct (src_read n (br_src b)) as [[s' d'] res]. injection E as <- <- <-. apply ev_pure.
    - destruct (br_fill_buf t b) as [b1 r1] eqn:E1. eapply evals_bind; [exact (ev_fill _ _ _ _ _ _ H E1)|].
      destruct r1 as [avail|e| | |].
      + destruct (fill_avail _ _ _ _ _ _ H E1) as (free' & Bi1 & _ & Hz).
        destruct (consume_spec t Hbits cap src0 _ _ _ _ (zlen (ztake n avail)) Bi1 (zlen_nonneg _)) as (b3 & E3 & _ & S3 & _).
        rewrite E3 in E. injection E as <- <- <-. cbv beta iota zeta.
        eapply ev_do; [|exact (consume_step _ _ _ E3)|].
        * apply small_ok. rewrite zlen_ztake by lia. pose proof (zlen_nonneg avail). lia.
        * rewrite S3. apply ev_pure.
      + injection E as <- <- <-. apply ev_pure.
      + injection E as <- <- <-. apply ev_pure.
      + injection E as <- <- <-. apply ev_pure.
      + injection E as <- <- <-. apply ev_pure.
  Qed.

  Lemma ev_until fuel : forall b c out data free acc b' d r, bi b out data free -> br_until_loop t fuel b c acc = (b', d, r) ->
    evals t (br_ring b) (c_until_loop t fuel (br_lowat b) (br_src b) c acc) (br_ring b') (br_src b', d, r).
  Proof.
    induction fuel as [|f IH]; intros b c out data free acc b' d r H E; cbn [br_until_loop c_until_loop] in *.
    - injection E as <- <- <-. apply ev_pure.
    - destruct (br_fill_buf t b) as [b1 r1] eqn:E1. eapply evals_bind; [exact (ev_fill _ _ _ _ _ _ H E1)|].
      destruct (fill_low _ _ _ _ _ _ H E1) as (Lw & _ & data1 & free1 & Bi0). cbv beta iota.
      destruct r1 as [avail|e| | |].
      + destruct (fill_avail _ _ _ _ _ _ H E1) as (free' & Bi1 & _ & Hz). pose proof (zlen_nonneg avail) as Hz0.
        destruct (find_byte c avail) as [k|] eqn:Ef.
        * destruct (find_some_split t Hbits c avail k Ef) as (Hk & _).
          destruct (consume_spec t Hbits cap src0 _ _ _ _ (k + 1) Bi1 ltac:(lia)) as (b3 & E3 & _ & S3 & _).
          rewrite E3 in E. injection E as <- <- <-.
          eapply ev_do; [apply small_ok; lia|exact (consume_step _ _ _ E3)|]. rewrite S3. apply ev_pure.
        * destruct (consume_spec t Hbits cap src0 _ _ _ _ (zlen avail) Bi1 Hz0) as (b3 & E3 & Bi3 & S3 & L3).
          rewrite E3 in E. eapply ev_do; [apply small_ok; lia|exact (consume_step _ _ _ E3)|]. cbv beta. rewrite <- S3.
          destruct (zlen avail =? 0).
          -- injection E as <- <- <-. apply ev_pure.
          -- rewrite <- Lw, <- L3. exact (IH _ _ _ _ _ _ _ _ _ Bi3 E).
      + destruct (io_kind_of e); try (injection E as <- <- <-; apply ev_pure).
        rewrite <- Lw. exact (IH _ _ _ _ _ _ _ _ _ Bi0 E).
      + injection E as <- <- <-. apply ev_pure.
      + injection E as <- <- <-. apply ev_pure.
      + injection E as <- <- <-. apply ev_pure.
  Qed.

  Lemma ev_exact fuel : forall b n out data free acc b' d r, bi b out data free -> br_exact_loop t fuel b n acc = (b', d, r) ->
    evals t (br_ring b) (c_exact_loop t cap fuel (br_lowat b) (br_src b) n acc) (br_ring b') (br_src b', d, r).
  Proof.
    induction fuel as [|f IH]; intros b n out data free acc b' d r H E; cbn [br_exact_loop c_exact_loop] in *;
      (destruct (Z.leb_spec n 0) as [Hn|Hn]; [injection E as <- <- <-; apply ev_pure|]).
    - injection E as <- <- <-. apply ev_pure.
    - destruct (br_read t b n) as [[b1 d1] r1] eqn:E1. eapply evals_bind; [exact (ev_read _ _ _ _ _ _ _ _ H (Z.lt_le_incl _ _ Hn) E1)|].
      destruct (read_spec t Hbits cap Hcap Hword src0 Hpos _ _ _ _ n H (Z.lt_le_incl _ _ Hn)) as (b2 & data2 & free2 & d2 & r2 & E2 & Lw & M & _).
      rewrite E1 in E2. injection E2 as <- <- <-. cbv beta iota. destruct r1 as [k|e| | |].
      + destruct M as (_ & Bi1). destruct (k =? 0); [injection E as <- <- <-; apply ev_pure|].
        destruct (n <? k); [injection E as <- <- <-; apply ev_pure|].
        rewrite <- Lw. exact (IH _ _ _ _ _ _ _ _ _ Bi1 E).
      + destruct (io_kind_of e); try (injection E as <- <- <-; apply ev_pure).
        rewrite <- Lw. exact (IH _ _ _ _ _ _ _ _ _ M E).
      + injection E as <- <- <-. apply ev_pure.
      + contradiction M.
      + injection E as <- <- <-. apply ev_pure.
  Qed.

  Lemma ev_rstep b o out data free b' d r : bi b out data free -> brop_ok t o -> br_step t b o = (b', d, r) ->
    evals t (br_ring b) (c_rstep t cap (br_lowat b) (br_src b) o) (br_ring b') (br_lowat b', br_src b', d, r).
  Proof.
    intros H Ho E. destruct o as [n| |n|n|c|n]; cbn [br_step c_rstep brop_ok] in *.
    - assert (Hn : 0 <= n) by (unfold is_usize in Ho; lia).
      destruct (br_read t b n) as [[b1 d1] r1] eqn:E1. injection E as <- <- <-.
      destruct (read_spec t Hbits cap Hcap Hword src0 Hpos _ _ _ _ n H Hn) as (b2 & data2 & free2 & d2 & r2 & E2 & Lw & _).
      rewrite E1 in E2. injection E2 as <- <- <-. rewrite Lw.
      eapply evals_bind; [exact (ev_read _ _ _ _ _ _ _ _ H Hn E1)|]. apply ev_pure.
    - destruct (br_fill_buf t b) as [b1 r1] eqn:E1. injection E as <- <- <-.
      destruct (fill_low _ _ _ _ _ _ H E1) as (Lw & _). rewrite Lw.
      eapply evals_bind; [exact (ev_fill _ _ _ _ _ _ H E1)|]. apply ev_pure.
    - destruct (bi_ring t Hbits cap Hcap Hword src0 _ _ _ _ H) as (_ & _ & EB). rewrite EB in E.
      destruct (consume_spec t Hbits cap src0 _ _ _ _ n H ltac:(unfold is_usize in Ho; lia)) as (b3 & E3 & _ & S3 & L3).
      rewrite E3 in E. injection E as <- <- <-.
      eapply ev_do; [exact umax_ok|exact (peek_step _ _ EB)|].
      eapply ev_do; [exact Ho|exact (consume_step _ _ _ E3)|]. rewrite S3, L3. apply ev_pure.
    - injection E as <- <- <-. apply ev_pure.
    - unfold br_read_until in E.
      assert (Lw : br_lowat b' = br_lowat b).
      { destruct H as (T & R & H). destruct (until_spec t Hbits cap Hcap Hword src0 Hpos (2 * length (rs_script (br_src b)) + 3) b c out [] data free)
          as (b1 & acc1 & data1 & free1 & r1 & E1 & _ & Lw & _); [rewrite app_nil_r; exists T, R; exact H|intros []|].
        rewrite E in E1. injection E1 as <- <- <-. exact Lw. }
      eapply evals_bind; [exact (ev_until _ _ _ _ _ _ _ _ _ _ H E)|]. cbv beta iota. rewrite <- Lw. apply ev_pure.
    - unfold br_read_exact in E.
      assert (Lw : br_lowat b' = br_lowat b).
      { destruct (exact_spec t Hbits cap Hcap Hword src0 Hpos (Z.to_nat n + length (rs_script (br_src b)) + 1) b n out [] data free)
          as (b1 & acc1 & data1 & free1 & r1 & E1 & _ & Lw & _); [rewrite app_nil_r; exact H|unfold is_usize in Ho; lia|].
        rewrite E in E1. injection E1 as <- _ _. exact Lw. }
      eapply evals_bind; [exact (ev_exact _ _ _ _ _ _ _ _ _ _ H E)|]. cbv beta iota. rewrite <- Lw. apply ev_pure.
  Qed.

  Lemma ev_rrun os : forall b out data free b' d rs, bi b out data free -> Forall (brop_ok t) os -> br_run t b os = (b', d, rs) ->
    evals t (br_ring b) (c_rrun t cap (br_lowat b) (br_src b) os) (br_ring b') (br_lowat b', br_src b', d, rs).
  Proof.
    induction os as [|o os IH]; intros b out data free b' d rs H F E; cbn [br_run c_rrun] in *.
    - injection E as <- <- <-. apply ev_pure.
    - apply Forall_cons_iff in F as [Ho F].
      destruct (br_step_spec t Hbits cap Hcap Hword src0 Hpos b o out data free H Ho) as (b1 & d1 & data1 & free1 & r1 & E1 & Bi1 & M1).
      rewrite E1 in E. eapply evals_bind; [exact (ev_rstep _ _ _ _ _ _ _ _ H Ho E1)|]. cbv beta iota.
      destruct r1 as [u|e| | |]; try (injection E as <- <- <-; apply ev_pure);
        (destruct (br_run t b1 os) as [[b2 d2] rs2] eqn:E2; injection E as <- <- <-;
         eapply evals_bind; [exact (IH _ _ _ _ _ _ _ Bi1 F E2)|]; apply ev_pure).
  Qed.
End R.

Section W.
  Variable t : target.
  Hypothesis Hbits : 32 <= t_bits t <= 64.
  Variable cap : Z.
  Hypothesis Hcap : 0 < cap.
  Hypothesis Hword : 2 * cap < 2 ^ t_bits t.
  Let wi := wi t cap.

  Lemma c_inner b buf b' r : bw_inner_write b buf = (b', r) ->
    c_inner_write (bw_sink b) buf = (bw_sink b', bw_panicked b', r) /\ bw_ring b' = bw_ring b.
  Proof.
    unfold bw_inner_write, c_inner_write. destruct (sink_write buf (bw_sink b)) as [s1 r1]. intros [= <- <-]. auto.
  Qed.

  Lemma ev_flush_loop fuel : forall b data free T b' r, wi b data free T -> bw_flush_loop t fuel b = (b', r) ->
    evals t (bw_ring b) (c_flush_loop t fuel (bw_sink b) (bw_panicked b)) (bw_ring b') (bw_sink b', bw_panicked b', r).
  Proof.
    induction fuel as [|f IH]; intros b data free T b' r H E; cbn [bw_flush_loop c_flush_loop] in *.
    - injection E as <- <-. apply ev_pure.
    - destruct (wi_ring t Hbits cap Hcap Hword _ _ _ _ H) as (ERL & EWL & EE & EB). pose proof (wi_lens t Hbits cap _ _ _ _ H) as HL.
      rewrite EE in E. cbn [sbind] in E. eapply ev_len; [exact ERL|]. cbv beta.
      destruct (zlen data =? 0). { injection E as <- <-. apply ev_pure. }
      rewrite EB in E. cbn [sbind] in E.
      eapply ev_do; [exact (umax_ok t Hbits)|cbn [ring_step]; unfold bw_buffer in EB; rewrite EB; reflexivity|].
      cbn [slice_of]. destruct (bw_inner_write b data) as [b1 r1] eqn:E1. destruct (c_inner _ _ _ _ E1) as [-> Er].
      pose proof (wi_inner t cap _ _ _ _ _ _ _ H E1) as H1. pose proof (zlen_nonneg free).
      assert (Hh : Forall whonest (ws_script (bw_sink b))) by (destruct H as (? & _ & _ & _ & ?); assumption).
      destruct r1 as [n|e| | |]; rewrite <- Er.
      + destruct (inner_write_spec _ _ _ _ Hh E1) as (_ & _ & [(_ & _ & X)|(a & _ & _ & _ & [(k & _ & X & _)|[(? & _ & X & _)|(_ & X & _)]])]); try discriminate X.
        injection X as ->. set (n := zlen (ztake k data)) in *.
        assert (Hn : 0 <= n <= cap).
        { split; [apply zlen_nonneg|]. unfold n. pose proof (zlen_nonneg data). destruct (Z.le_gt_cases 0 k).
          - rewrite zlen_ztake by lia. lia.
          - rewrite ztake_neg by lia. change (zlen []) with 0. lia. }
        destruct (n =? 0). { injection E as <- <-. apply ev_pure. }
        pose proof H1 as (R & I & A & L & Hh').
        destruct (consume_eq t Hbits _ _ _ I n ltac:(lia)) as (r' & E' & I' & A' & L'). rewrite E' in E.
        eapply ev_do; [apply (small_ok t Hbits cap Hcap Hword); lia|cbn [ring_step]; rewrite E'; reflexivity|].
        eapply (IH {| bw_ring := r'; bw_sink := bw_sink b1; bw_panicked := bw_panicked b1 |}); [|exact E].
        exists (R + Z.min n (T - R)). cbn [bw_ring bw_sink]. split; [exact I'|]. rewrite A in A'. split; [exact A'|]. split; [lia|exact Hh'].
      + destruct (io_kind_of e); try (injection E as <- <-; apply ev_pure). exact (IH _ _ _ _ _ _ H1 E).
      + injection E as <- <-. apply ev_pure.
      + injection E as <- <-. apply ev_pure.
      + injection E as <- <-. apply ev_pure.
  Qed.
  Lemma ev_flush_buf b data free T b' r : wi b data free T -> bw_flush_buf t b = (b', r) ->
    evals t (bw_ring b) (c_flush_buf t (bw_sink b) (bw_panicked b)) (bw_ring b') (bw_sink b', bw_panicked b', r).
  Proof. apply ev_flush_loop. Qed.

  Lemma ev_write b data free T buf b' r : wi b data free T -> pos_ok t cap (T + zlen buf) -> bw_write t b buf = (b', r) ->
    evals t (bw_ring b) (c_write t (bw_sink b) (bw_panicked b) buf) (bw_ring b') (bw_sink b', bw_panicked b', r).
  Proof.
    intros H Hp E. destruct (wi_ring t Hbits cap Hcap Hword _ _ _ _ H) as (ERL & EWL & EE & EB).
    unfold bw_write in E. rewrite EWL in E. cbn [sbind] in E. unfold c_write. eapply ev_len; [exact EWL|]. cbv beta.
    assert (Tail : forall b1 data1 free1, wi b1 data1 free1 T ->
      (sbind (b1, ring_write_len t (bw_ring b1)) (fun b wl' =>
         if wl' <=? zlen buf then bw_inner_write b buf
         else match ring_write t (bw_ring b) buf with
              | Ret (r', n) => ({| bw_ring := r'; bw_sink := bw_sink b; bw_panicked := bw_panicked b |}, Ret n)
              | Err e => (b, Err e) | Panic => (b, Panic) | Fault => (b, Fault) | Blocked => (b, Blocked)
              end)) = (b', r) ->
      evals t (bw_ring b1) (Len true (fun wl' =>
        if wl' <=? zlen buf then Pure (c_inner_write (bw_sink b1) buf)
        else Do (RWrite buf) (fun x => Pure (bw_sink b1, bw_panicked b1, Ret (count_of x))))) (bw_ring b') (bw_sink b', bw_panicked b', r)).
    { intros b1 data1 free1 H1 E1. destruct (wi_ring t Hbits cap Hcap Hword _ _ _ _ H1) as (_ & EWL1 & _).
      rewrite EWL1 in E1. cbn [sbind] in E1. eapply ev_len; [exact EWL1|]. cbv beta.
      destruct (Z.leb_spec (zlen free1) (zlen buf)) as [Hle|Hgt].
      - destruct (c_inner _ _ _ _ E1) as [-> <-]. apply ev_pure.
      - pose proof H1 as (R & I & A & L & Hh). pose proof (absq_free_len t Hbits _ _ _ I) as HF. rewrite A in HF. cbn [q_free] in HF.
        destruct (write_eq t Hbits _ _ _ buf I) as (r' & E' & _).
        { rewrite L. eapply (pos_ok_le t Hbits); [exact Hp|]. lia. }
        rewrite E' in E1. injection E1 as <- <-. cbn [bw_ring bw_sink bw_panicked].
        eapply ev_do; [exact Logic.I|cbn [ring_step]; rewrite E'; cbn [obind fst snd]; reflexivity|]. apply ev_pure. }
    destruct (Z.ltb_spec (zlen free) (zlen buf)) as [Hlt|Hge].
    - destruct (bw_flush_buf t b) as [b1 r1] eqn:E1. eapply evals_bind; [exact (ev_flush_buf _ _ _ _ _ _ H E1)|]. cbv beta iota.
      unfold bw_flush_buf in E1.
      destruct (flush_spec t Hbits cap Hcap Hword (S (length (ws_script (bw_sink b)))) _ _ _ _ H) as (b2 & p & data1 & free1 & r2 & pre & E2 & H1 & _).
      rewrite E1 in E2. injection E2 as <- <-. cbn [sbind] in E.
      destruct r1 as [u|e| | |]; try (injection E as <- <-; apply ev_pure). exact (Tail _ _ _ H1 E).
    - cbn [cbind]. cbn [sbind] in E. exact (Tail _ _ _ H E).
  Qed.

  Lemma ev_flush b data free T b' r : wi b data free T -> bw_flush t b = (b', r) ->
    evals t (bw_ring b) (c_flush t (bw_sink b) (bw_panicked b)) (bw_ring b') (bw_sink b', bw_panicked b', r).
  Proof.
    intros H E. unfold bw_flush in E. destruct (bw_flush_buf t b) as [b1 r1] eqn:E1.
    unfold c_flush. eapply evals_bind; [exact (ev_flush_buf _ _ _ _ _ _ H E1)|]. cbv beta iota. cbn [sbind] in E.
    destruct r1 as [u|e| | |]; try (injection E as <- <-; apply ev_pure).
    destruct (sink_flush (bw_sink b1)) as [s2 r2]. injection E as <- <-. apply ev_pure.
  Qed.
  Lemma ev_drop b data free T s r : wi b data free T -> bw_drop t b = (s, r) ->
    exists b2 p lost free2, evals t (bw_ring b) (c_drop t (bw_sink b) (bw_panicked b)) (bw_ring b2) (s, r) /\
      wi b2 lost free2 T /\ data = p ++ lost /\ accepted s = accepted (bw_sink b) ++ p /\ r <> Fault.
  Proof.
    intros H E. unfold bw_drop, c_drop in *. destruct (bw_panicked b) eqn:Ep.
    - injection E as <- <-. exists b, [], data, free. rewrite app_nil_r. split; [apply ev_pure|]. split; [exact H|].
      split; [reflexivity|]. split; [reflexivity|discriminate].
    - destruct (bw_flush_buf t b) as [b1 r1] eqn:E1. injection E as <- <-. pose proof E1 as E1'. unfold bw_flush_buf in E1'.
      destruct (flush_spec t Hbits cap Hcap Hword (S (length (ws_script (bw_sink b)))) _ _ _ _ H) as (b2 & p & data1 & free1 & r2 & pre & E2 & H1 & Hd & (ds & Hl & Hc) & _ & _ & _ & M).
      rewrite E1' in E2. injection E2 as <- <-. exists b1, p, data1, free1.
      split; [eapply evals_bind; [rewrite <- Ep; exact (ev_flush_buf _ _ _ _ _ _ H E1)|]; apply ev_pure|].
      split; [exact H1|]. split; [exact Hd|]. split; [exact (accepted_flush _ _ _ _ Hl Hc)|].
      destruct r1; try discriminate. contradiction M.
  Qed.

  Lemma ev_write_all fuel : forall b data free T buf told b' d r, wi b data free T -> pos_ok t cap (T + zlen buf) ->
    bw_write_all_loop t fuel b buf told = (b', d, r) ->
    evals t (bw_ring b) (c_write_all_loop t fuel (bw_sink b) (bw_panicked b) buf told) (bw_ring b') (bw_sink b', bw_panicked b', d, r).
  Proof.
    induction fuel as [|f IH]; intros b data free T buf told b' d r H Hp E; (destruct buf as [|x buf]; [injection E as <- <- <-; apply ev_pure|]).
    - injection E as <- <- <-. apply ev_pure.
    - cbn [bw_write_all_loop c_write_all_loop] in *. set (bf := x :: buf) in *.
      destruct (bw_write t b bf) as [b1 r1] eqn:E1. eapply evals_bind; [exact (ev_write _ _ _ _ _ _ _ H Hp E1)|]. cbv beta iota.
      destruct (write_moves t Hbits cap Hcap Hword _ _ _ _ _ H (or_introl Hp)) as (b2 & data2 & free2 & T2 & r2 & E2 & H2 & _ & _ & _ & pre & _ & M).
      rewrite E1 in E2. injection E2 as <- <-. destruct r1 as [n|e| | |].
      + destruct (n =? 0); [injection E as <- <- <-; apply ev_pure|].
        destruct (Z.ltb_spec (zlen bf) n) as [Hlt|Hge]; [injection E as <- <- <-; apply ev_pure|].
        refine (IH _ _ _ _ _ _ _ _ _ H2 _ E). eapply (pos_ok_le t Hbits); [exact Hp|].
        destruct M as (Hn & HT & _). rewrite zlen_zdrop by lia. lia.
      + destruct M as (-> & _). destruct (io_kind_of e); try (injection E as <- <- <-; apply ev_pure). exact (IH _ _ _ _ _ _ _ _ _ H2 Hp E).
      + injection E as <- <- <-. apply ev_pure.
      + injection E as <- <- <-. apply ev_pure.
      + injection E as <- <- <-. apply ev_pure.
  Qed.

  Lemma ev_wstep b o data free T b' d r : wi b data free T -> pos_ok t cap (T + bwop_weight o) -> bw_step t b o = (b', d, r) ->
    evals t (bw_ring b) (c_wstep t (bw_sink b) (bw_panicked b) o) (bw_ring b') (bw_sink b', bw_panicked b', d, r).
  Proof.
    intros H Hp E. destruct o as [buf|buf|]; cbn [bw_step c_wstep bwop_weight] in *.
    - destruct (bw_write t b buf) as [b1 r1] eqn:E1. injection E as <- <- <-.
      eapply evals_bind; [exact (ev_write _ _ _ _ _ _ _ H Hp E1)|]. apply ev_pure.
    - exact (ev_write_all _ _ _ _ _ _ _ _ _ _ H Hp E).
    - destruct (bw_flush t b) as [b1 r1] eqn:E1. injection E as <- <- <-.
      eapply evals_bind; [exact (ev_flush _ _ _ _ _ _ H E1)|]. apply ev_pure.
  Qed.
  Lemma weights_nonneg os : 0 <= bwops_weight os.
  Proof.
    induction os as [|o os IH]; [reflexivity|]. change (bwops_weight (o :: os)) with (bwop_weight o + bwops_weight os).
    assert (0 <= bwop_weight o) by (destruct o as [b|b|]; cbn; try apply zlen_nonneg; lia). lia.
  Qed.
  Lemma ev_wrun os : forall b data free T b' d rs, wi b data free T -> pos_ok t cap (T + bwops_weight os) -> bw_run t b os = (b', d, rs) ->
    evals t (bw_ring b) (c_wrun t (bw_sink b) (bw_panicked b) os) (bw_ring b') (bw_sink b', bw_panicked b', d, rs).
  Proof.
    induction os as [|o os IH]; intros b data free T b' d rs H Hp E; cbn [bw_run c_wrun] in *.
    - injection E as <- <- <-. apply ev_pure.
    - assert (W : 0 <= bwops_weight os) by apply weights_nonneg.
      change (bwops_weight (o :: os)) with (bwop_weight o + bwops_weight os) in Hp.
      assert (Hp1 : pos_ok t cap (T + bwop_weight o)) by (eapply (pos_ok_le t Hbits); [exact Hp|lia]).
      destruct (bw_step_spec t Hbits cap Hcap Hword b o _ _ _ H (or_introl Hp1)) as (b1 & d1 & data1 & free1 & T1 & r1 & E1 & H1 & HT & _).
      rewrite E1 in E. eapply evals_bind; [exact (ev_wstep _ _ _ _ _ _ _ _ H Hp1 E1)|]. cbv beta iota.
      destruct r1 as [u|e| | |]; try (injection E as <- <- <-; apply ev_pure);
        (destruct (bw_run t b1 os) as [[b2 d2] rs2] eqn:E2; injection E as <- <- <-;
         eapply evals_bind; [refine (IH _ _ _ _ _ _ _ H1 _ E2); eapply (pos_ok_le t Hbits); [exact Hp|lia]|]; apply ev_pure).
  Qed.
  Lemma ev_wlife os b data free T b' d rs s r : wi b data free T -> pos_ok t cap (T + bwops_weight os) -> bw_run t b os = (b', d, rs) ->
    bw_drop t b' = (s, r) ->
    exists b2 lost free2 T2, evals t (bw_ring b) (c_wlife t (bw_sink b) (bw_panicked b) os) (bw_ring b2) (s, d, rs ++ [r]) /\
      wi b2 lost free2 T2 /\ Permutation (accepted (bw_sink b) ++ data ++ d) (accepted s ++ lost) /\ Forall (fun r => r <> Fault) (rs ++ [r]).
  Proof.
    intros H Hp E Ed.
    destruct (bw_run_spec t Hbits cap Hcap Hword os b _ _ _ H (or_introl Hp)) as (b1 & d1 & data1 & free1 & T1 & rs1 & E1 & H1 & _ & Pm & _ & _ & F & _).
    rewrite E in E1. injection E1 as <- <- <-. destruct (ev_drop _ _ _ _ _ _ H1 Ed) as (b2 & p & lost & free2 & D & H2 & Hd & Ha & Nf).
    exists b2, lost, free2, T1. split; [|split; [exact H2|split]].
    - unfold c_wlife. eapply evals_bind; [exact (ev_wrun _ _ _ _ _ _ _ _ H Hp E)|]. cbv beta iota.
      eapply evals_bind; [exact D|]. apply ev_pure.
    - rewrite Ha, <- app_assoc, <- Hd. exact Pm.
    - apply Forall_app. split; [exact F|]. constructor; [exact Nf|constructor].
  Qed.
End W.

(** ** From the ring as a value to the ring in a process *)
Section X.
  Variable t : target.
  Variables P C : Type.
  Variable other : C -> Prop.
  Variable step : C -> P -> P.
  Variable own : rop -> P -> option (out io_error rout) * P.
  Variable len : bool -> P -> option (out io_error Z).
  (** [sim p r]: the process holds the ring [r]. *)
  Variable sim : P -> ring -> Prop.
  Hypothesis Hother : forall p r e, sim p r -> other e -> sim (step e p) r.
  Hypothesis Hlen : forall p r (w : bool) n, sim p r -> (if w then ring_write_len t r else ring_read_len t r) = Ret n -> len w p = Some (Ret n).
  Hypothesis Hown : forall p r o r1 x, sim p r -> rop_ok t o -> ring_step t r o = Ret (r1, x) ->
    exists p1, own o p = (Some (Ret x), p1) /\ sim p1 r1.

  Lemma exec_sound {A} p (c : code A) res p' : exec P C other step own len p c res p' ->
    forall r r1 a, sim p r -> evals t r c r1 a -> res = Some a /\ sim p' r1.
  Proof.
    induction 1 as [p e c res p' O H IH|p a|p w k n res p' L H IH|p w k L|p o k x p1 res p' O H IH|p o k y p1 O N]; intros r r1 a' S E.
    - exact (IH _ _ _ (Hother _ _ _ S O) E).
    - inversion E; subst. auto.
    - inversion E as [|? ? ? n0 ? ? L0 E0|]; subst. rewrite (Hlen _ _ _ _ S L0) in L. injection L as <-. exact (IH _ _ _ S E0).
    - inversion E as [|? ? ? n0 ? ? L0 E0|]; subst. destruct (L n0 (Hlen _ _ _ _ S L0)).
    - inversion E as [| |? ? ? r2 x0 ? ? Ok L0 E0]; subst. destruct (Hown _ _ _ _ _ S Ok L0) as (p2 & O2 & S2). rewrite O2 in O. injection O as <- <-.
      exact (IH _ _ _ S2 E0).
    - inversion E as [| |? ? ? r2 x0 ? ? Ok L0 E0]; subst. destruct (Hown _ _ _ _ _ S Ok L0) as (p2 & O2 & S2). rewrite O2 in O. injection O as <- <-.
      destruct (N x0 eq_refl).
  Qed.
  Lemma exec_exists {A} (c : code A) r r1 a : evals t r c r1 a -> forall p, sim p r ->
    exists p', exec P C other step own len p c (Some a) p' /\ sim p' r1.
  Proof.
    induction 1 as [r a|r w k n r' a L H IH|r o k r1 x r' a Ok E H IH]; intros p S.
    - exists p. split; [constructor|exact S].
    - destruct (IH _ S) as (p' & X & S'). exists p'. split; [|exact S']. eapply x_len; [exact (Hlen _ _ _ _ S L)|exact X].
    - destruct (Hown _ _ _ _ _ S Ok E) as (p1 & O1 & S1). destruct (IH _ S1) as (p' & X & S'). exists p'. split; [|exact S'].
      eapply x_do; [exact O1|exact X].
  Qed.
End X.

Section Runs.
  Variables P C : Type.
  Variable other : C -> Prop.
  Variable step : C -> P -> P.
  Variable own : rop -> P -> option (out io_error rout) * P.
  Variable len : bool -> P -> option (out io_error Z).
  Lemma others_first {A} es : forall p (c : code A) r p', Forall other es ->
    exec P C other step own len (fold_left (fun p e => step e p) es p) c r p' -> exec P C other step own len p c r p'.
  Proof.
    induction es as [|e es IH]; intros p c r p' F X; [exact X|]. apply Forall_cons_iff in F as [F1 F].
    eapply x_other; [exact F1|]. exact (IH _ _ _ _ F X).
  Qed.
  Lemma runs_exec {A} (c : code A) : forall es p, Forall (Forall other) es ->
    exec P C other step own len p c (fst (runs P C step own len c es p)) (snd (runs P C step own len c es p)).
  Proof.
    assert (Hd : forall es : list (list C), Forall (Forall other) es -> Forall other (hd [] es) /\ Forall (Forall other) (tl es)).
    { intros [|e es] F; [split; constructor|]. apply Forall_cons_iff in F. exact F. }
    induction c as [a|w k IH|o k IH]; intros es p F; destruct (Hd es F) as [F1 F2]; apply (others_first (hd [] es)); try exact F1; cbn [runs];
      set (q := fold_left (fun p e => step e p) (hd [] es) p) in *; clearbody q.
    - apply x_pure.
    - destruct (len w q) as [[n|e| | |]|] eqn:L; cbn [fst snd]; try (apply x_len_bad; intros n' X; rewrite X in L; discriminate L).
      eapply x_len; [exact L|]. apply IH, F2.
    - destruct (own o q) as [[[x|e| | |]|] p1] eqn:O; cbn [fst snd]; try (eapply x_do_bad; [exact O|intros x' X; discriminate X]).
      eapply x_do; [exact O|]. apply IH, F2.
  Qed.
End Runs.
