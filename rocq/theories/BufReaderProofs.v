(** The buffered reader over an honest inner reader. *)
From Coq Require Import Lia.
From Verif Require Import Base ErrorModel RingSpec RingModel BufSpec BufModel SeqProofs SizeProofs
  RingProofs RingTheorems RingClaims.

(** What an honest reader's call does. *)
Lemma src_read_spec n s s' d res : 0 <= n -> Forall honest (rs_script s) ->
  src_read n s = (s', d, res) ->
  Forall honest (rs_script s') /\ zlen d <= n /\
  ((rs_script s = [] /\ s' = s /\ d = [] /\ res = Blocked) \/
   (exists a, rs_script s = a :: rs_script s' /\ rs_asked s' = rs_asked s ++ [n] /\
    ((exists k, a = Give k /\ rs_src s = d ++ rs_src s' /\ res = Ret (zlen d) /\
                d = ztake (Z.min k n) (rs_src s)) \/
     (exists x e, a = RFail x e /\ rs_src s' = rs_src s /\ res = Err e) \/
     (exists x, a = RBoom x /\ rs_src s' = rs_src s /\ res = Panic)))).
Proof.
  intros Hn Hh. unfold src_read. destruct (rs_script s) as [|a rest] eqn:Es.
  - intros E. injection E as <- <- <-. rewrite Es. split; [constructor|]. split; [cbn; lia|].
    left. auto.
  - inversion Hh as [|? ? Ha Hr]; subst. destruct a as [k|d0 k|d0 e|d0]; cbn [honest] in Ha; try contradiction;
      intros E; injection E as <- <- <-; cbn [rs_script rs_src rs_asked]; (split; [exact Hr|]).
    + split; [destruct (Z.le_gt_cases 0 (Z.min k n)); [rewrite zlen_ztake by lia; lia|rewrite ztake_neg by lia; cbn; lia]|].
      right. exists (Give k). split; [reflexivity|]. split; [reflexivity|]. left. exists k.
      split; [reflexivity|]. split; [|split; reflexivity].
      set (j := Z.min k n). destruct (Z.le_gt_cases j 0).
      * rewrite (ztake_neg j) by lia. rewrite zdrop_neg by (cbn; lia). reflexivity.
      * rewrite zlen_ztake by lia. rewrite zdrop_min, ztake_zdrop. reflexivity.
    + split; [rewrite zlen_ztake by lia; lia|]. right. exists (RFail d0 e).
      split; [reflexivity|]. split; [reflexivity|]. right. left. exists d0, e. auto.
    + split; [rewrite zlen_ztake by lia; lia|]. right. exists (RBoom d0).
      split; [reflexivity|]. split; [reflexivity|]. right. right. exists d0. auto.
Qed.

Section R.
  Variable t : target.
  Hypothesis Hbits : 32 <= t_bits t <= 64.
  Variable cap : Z.
  Hypothesis Hcap : 0 < cap.
  Hypothesis Hword : 2 * cap < 2 ^ t_bits t.
  Variable src0 : bytes.
  Hypothesis Hpos : pos_ok t cap (zlen src0).

  (** [out]: bytes that have left; [data]: buffered; [free]: the bytes in the
      writable area. *)
  Definition bi (b : bufreader) (out data free : bytes) : Prop :=
    exists T R, inv t (br_ring b) T R /\
      absq (br_ring b) T R = {| q_data := data; q_free := free |} /\
      T <= zlen src0 - zlen (rs_src (br_src b)) /\ r_len (br_ring b) = cap /\
      0 <= br_lowat b /\ Forall honest (rs_script (br_src b)) /\
      out ++ data ++ rs_src (br_src b) = src0.

  Lemma bi_lens b out data free : bi b out data free -> zlen data + zlen free = cap.
  Proof.
    intros (T & R & I & A & _ & L & _).
    pose proof (absq_data_len t Hbits _ _ _ I) as H1. pose proof (absq_free_len t Hbits _ _ _ I) as H2.
    rewrite A in H1, H2. cbn [q_data q_free] in *. lia.
  Qed.

  Lemma bi_ring b out data free : bi b out data free ->
    ring_read_len t (br_ring b) = Ret (zlen data) /\
    ring_write_slice t (br_ring b) (umax t) = Ret free /\
    br_buffer t b = Ret data.
  Proof.
    intros H. pose proof (bi_lens _ _ _ _ H) as HL. pose proof (zlen_nonneg data). pose proof (zlen_nonneg free).
    destruct H as (T & R & I & A & _ & L & _).
    pose proof (absq_data_len t Hbits _ _ _ I) as HD1. rewrite A in HD1. cbn [q_data] in HD1.
    unfold br_buffer. rewrite (read_len_eq t Hbits _ _ _ I), (write_slice_eq t Hbits _ _ _ I), (read_slice_eq t Hbits _ _ _ I)
      by (unfold umax; lia).
    rewrite A. cbn [q_data q_free]. rewrite !ztake_all by (unfold umax; lia).
    rewrite HD1. auto.
  Qed.

  (** fill_buf, completely. *)
  Lemma fill_spec b out data free : bi b out data free ->
    exists b' data' free' r, br_fill_buf t b = (b', r) /\ bi b' out data' free' /\ br_lowat b' = br_lowat b /\
    ((br_lowat b < zlen data /\ b' = b /\ data' = data /\ r = Ret data) \/
     (zlen data <= br_lowat b /\ exists d res,
        src_read (zlen free) (br_src b) = (br_src b', d, res) /\
        match res with
        | Ret k => k = zlen d /\ data' = data ++ d /\ r = Ret data'
        | Err e => data' = data /\ r = Err e
        | Panic => data' = data /\ r = Panic
        | Blocked => rs_script (br_src b) = [] /\ data' = data /\ r = Blocked
        | Fault => False
        end)).
  Proof.
    intros H. pose proof (bi_lens _ _ _ _ H) as HL. pose proof (zlen_nonneg data) as Hd0. pose proof (zlen_nonneg free) as Hf0.
    destruct (bi_ring _ _ _ _ H) as (ERL & EWS & EB).
    unfold br_fill_buf. rewrite ERL. cbn [sbind].
    destruct (Z.leb_spec (zlen data) (br_lowat b)) as [Hlow|Hlow].
    2:{ cbn [sbind]. rewrite EB. exists b, data, free, (Ret data).
        split; [reflexivity|]. split; [exact H|]. split; [reflexivity|]. left. auto. }
    rewrite EWS. cbn [sbind].
    destruct (src_read (zlen free) (br_src b)) as [[s' d] res] eqn:ES.
    destruct H as (T & R & I & A & B & L & Hlw & Hh & Ho).
    destruct (src_read_spec _ _ _ _ _ Hf0 Hh ES) as (Hh' & Hdn & C).
    pose proof (absq_free_len t Hbits _ _ _ I) as HF. rewrite A in HF. cbn [q_free] in HF.
    pose proof (zlen_nonneg d) as Hdd.
    destruct (slice_store_ok t Hbits _ _ _ I (umax t) 0 d) as (r1 & E1 & I1 & A1 & L1 & _ & _);
      [unfold umax; lia|lia|unfold umax; lia|].
    cbn [br_with_src br_ring br_src br_lowat]. rewrite E1. cbn [on_ring sbind br_with_ring br_ring br_src br_lowat br_with_src].
    rewrite A in A1. cbn [q_data q_free] in A1. rewrite (ztake_neg 0 free) in A1 by lia. cbn [app] in A1.
    rewrite Z.add_0_l in A1.
    set (free1 := d ++ zdrop (zlen d) free) in *.
    assert (Base : forall src', rs_src s' = src' -> src' = rs_src (br_src b) ->
      bi {| br_ring := r1; br_src := s'; br_lowat := br_lowat b |} out data free1).
    { intros src' E1' E2'. exists T, R. cbn [br_ring br_src br_lowat]. rewrite E1', E2'.
      split; [exact I1|]. split; [exact A1|]. split; [exact B|]. split; [lia|]. split; [exact Hlw|].
      split; [exact Hh'|exact Ho]. }
    destruct C as [(S0 & -> & -> & ->)|(a & Sa & _ & C)].
    - exists {| br_ring := r1; br_src := br_src b; br_lowat := br_lowat b |}, data, free1, Blocked.
      split; [reflexivity|]. split; [apply (Base _ eq_refl eq_refl)|]. split; [reflexivity|].
      right. split; [exact Hlow|]. exists [], Blocked. cbn [br_src]. auto.
    - destruct C as [(k & -> & Hsrc & -> & Hd)|[(x & e & -> & Hsrc & ->)|(x & -> & Hsrc & ->)]].
      + cbn [sbind]. 
        assert (Hz : zlen (rs_src (br_src b)) = zlen d + zlen (rs_src s')) by (rewrite Hsrc, zlen_app; reflexivity).
        destruct (feed_eq t Hbits _ _ _ I1 (zlen d) Hdd) as (r2 & E2 & I2 & A2 & L2).
        { rewrite L1, L. eapply (pos_ok_le t Hbits); [exact Hpos|].
          pose proof (zlen_nonneg (rs_src s')). lia. }
        rewrite E2. cbn [on_ring sbind br_with_ring br_ring br_src br_lowat].
        rewrite A1 in A2. cbn [q_append q_data q_free] in A2. unfold free1 in A2.
        rewrite ztake_app_l in A2 by lia. rewrite ztake_all in A2 by lia.
        unfold q_append in A2. cbn [q_data q_free] in A2.
        rewrite zdrop_app_r in A2 by lia. rewrite Z.sub_diag in A2. rewrite (zdrop_neg 0) in A2 by lia.
        set (b2 := {| br_ring := r2; br_src := s'; br_lowat := br_lowat b |}).
        assert (Bi2 : bi b2 out (data ++ d) (zdrop (zlen d) free)).
        { exists (T + Z.min (zlen d) (r_len r1 - (T - R))), R. unfold b2; cbn [br_ring br_src br_lowat].
          split; [exact I2|]. split; [exact A2|]. split; [lia|]. split; [lia|]. split; [exact Hlw|].
          split; [exact Hh'|]. rewrite <- Ho, Hsrc, <- app_assoc. reflexivity. }
        destruct (bi_ring _ _ _ _ Bi2) as (_ & _ & EB2). change (br_with_ring (br_with_ring (br_with_src b s') r1) r2) with b2. rewrite EB2.
        exists b2, (data ++ d), (zdrop (zlen d) free), (Ret (data ++ d)).
        split; [reflexivity|]. split; [exact Bi2|]. split; [reflexivity|].
        right. split; [exact Hlow|]. exists d, (Ret (zlen d)). split; [reflexivity|]. auto.
      + cbn [sbind]. exists {| br_ring := r1; br_src := s'; br_lowat := br_lowat b |}, data, free1, (Err e).
        split; [reflexivity|]. split; [apply (Base _ eq_refl Hsrc)|]. split; [reflexivity|].
        right. split; [exact Hlow|]. exists d, (Err e). split; [reflexivity|]. auto.
      + cbn [sbind]. exists {| br_ring := r1; br_src := s'; br_lowat := br_lowat b |}, data, free1, Panic.
        split; [reflexivity|]. split; [apply (Base _ eq_refl Hsrc)|]. split; [reflexivity|].
        right. split; [exact Hlow|]. exists d, Panic. split; [reflexivity|]. auto.
  Qed.

  Lemma consume_spec b out data free n : bi b out data free -> 0 <= n ->
    exists b', br_consume t b n = (b', Ret tt) /\
      bi b' (out ++ ztake n data) (zdrop n data) (free ++ ztake n data) /\
      br_src b' = br_src b /\ br_lowat b' = br_lowat b.
  Proof.
    intros (T & R & I & A & B & L & Hlw & Hh & Ho) Hn.
    destruct (consume_eq t Hbits _ _ _ I n Hn) as (r' & E & I' & A' & L').
    unfold br_consume. rewrite E. cbn [on_ring]. exists (br_with_ring b r').
    split; [reflexivity|]. split; [|split; reflexivity].
    rewrite A in A'. cbn [q_remove q_data q_free] in A'.
    exists T, (R + Z.min n (T - R)). cbn [br_with_ring br_ring br_src br_lowat].
    split; [exact I'|]. split; [exact A'|]. split; [exact B|]. split; [lia|]. split; [exact Hlw|].
    split; [exact Hh|]. rewrite <- Ho, <- app_assoc. f_equal. rewrite app_assoc, ztake_zdrop. reflexivity.
  Qed.

  (** read, completely. *)
  Lemma read_spec b out data free n : bi b out data free -> 0 <= n ->
    exists b' data' free' d r, br_read t b n = (b', d, r) /\ br_lowat b' = br_lowat b /\
      (match r with Ret k => k = zlen d /\ bi b' (out ++ d) data' free'
                  | Fault => False | _ => bi b' out data' free' end) /\
      ((data = [] /\ cap <= n /\ data' = [] /\ src_read n (br_src b) = (br_src b', d, r)) \/
       ((data <> [] \/ n < cap) /\
        exists b1 r1, br_fill_buf t b = (b1, r1) /\ br_src b' = br_src b1 /\
          match r1 with
          | Ret avail => d = ztake n avail /\ data' = zdrop n avail /\ r = Ret (zlen d)
          | Err e => d = [] /\ r = Err e | Panic => d = [] /\ r = Panic
          | Blocked => d = [] /\ r = Blocked | Fault => False
          end)).
  Proof.
    intros H Hn. pose proof (bi_lens _ _ _ _ H) as HL.
    destruct (bi_ring _ _ _ _ H) as (ERL & EWS & EB).
    unfold br_read. rewrite ERL. cbn [sbind]. unfold ring_write_capacity.
    assert (HC : r_len (br_ring b) = cap) by (destruct H as (? & ? & ? & ? & ? & ? & ?); assumption).
    rewrite HC. destruct ((zlen data =? 0) && (cap <=? n)) eqn:Hd.
    - apply andb_prop in Hd. destruct Hd as [Hd1 Hd2]. apply Z.eqb_eq, zlen_0 in Hd1. apply Z.leb_le in Hd2. subst data.
      destruct (src_read n (br_src b)) as [[s' d] res] eqn:ES.
      destruct H as (T & R & I & A & B & L & Hlw & Hh & Ho).
      destruct (src_read_spec _ _ _ _ _ Hn Hh ES) as (Hh' & Hdn & C).
      exists (br_with_src b s'), [], free, d, res. split; [reflexivity|]. split; [reflexivity|].
      split; [|left; auto].
      assert (Base : forall o', o' ++ rs_src s' = src0 -> zlen (rs_src s') <= zlen (rs_src (br_src b)) ->
                bi (br_with_src b s') o' [] free).
      { intros o' Ho' Hz. exists T, R. cbn [br_with_src br_ring br_src br_lowat].
        split; [exact I|]. split; [exact A|]. split; [lia|]. auto. }
      destruct C as [(S0 & -> & -> & ->)|(a & Sa & _ & C)].
      + apply Base; [exact Ho|lia].
      + destruct C as [(k & -> & Hsrc & -> & Hd)|[(x & e & -> & Hsrc & ->)|(x & -> & Hsrc & ->)]].
        * split; [reflexivity|]. apply Base; [rewrite <- app_assoc, <- Hsrc; exact Ho|].
          rewrite Hsrc, zlen_app. pose proof (zlen_nonneg d). lia.
        * apply Base; [rewrite Hsrc; exact Ho|rewrite Hsrc; lia].
        * apply Base; [rewrite Hsrc; exact Ho|rewrite Hsrc; lia].
    - assert (Hor : data <> [] \/ n < cap).
      { apply andb_false_iff in Hd. destruct Hd as [Hd|Hd].
        - left. intros ->. discriminate Hd.
        - right. apply Z.leb_gt in Hd. lia. }
      destruct (fill_spec _ _ _ _ H) as (b1 & data1 & free1 & r1 & E1 & Bi1 & Lw & C). rewrite E1.
      assert (Hr1 : match r1 with Ret a => a = data1 | Fault => False | _ => True end).
      { destruct C as [(_ & -> & -> & ->)|(_ & d & res & _ & M)]; [reflexivity|].
        destruct res as [k|e| | |]; [destruct M as (_ & _ & ->)|destruct M as (_ & ->)|destruct M as (_ & ->)|
          contradiction M|destruct M as (_ & _ & ->)]; trivial. }
      destruct r1 as [avail|e| | |]; try contradiction.
      + subst avail. set (d := ztake n data1).
        destruct (consume_spec _ _ _ _ (zlen d) Bi1 (zlen_nonneg d)) as (b3 & E3 & Bi3 & S3 & L3).
        rewrite E3.
        assert (Hk : zlen d = Z.min n (zlen data1)) by (apply zlen_ztake; exact Hn).
        rewrite Hk, zdrop_min, ztake_min in Bi3.
        exists b3, (zdrop n data1), (free1 ++ d), d, (Ret (zlen d)).
        split; [reflexivity|]. split; [congruence|]. split; [split; [reflexivity|exact Bi3]|].
        right. split; [exact Hor|]. exists b1, (Ret data1). auto.
      + exists b1, data1, free1, [], (Err e). split; [reflexivity|]. split; [exact Lw|]. split; [exact Bi1|].
        right. split; [exact Hor|]. exists b1, (Err e). auto.
      + exists b1, data1, free1, [], Panic. split; [reflexivity|]. split; [exact Lw|]. split; [exact Bi1|].
        right. split; [exact Hor|]. exists b1, Panic. auto.
      + exists b1, data1, free1, [], Blocked. split; [reflexivity|]. split; [exact Lw|]. split; [exact Bi1|].
        right. split; [exact Hor|]. exists b1, Blocked. auto.
  Qed.

  (** How many answers of the inner reader a call used. *)
  Lemma fill_script b out data free b' r : bi b out data free -> br_fill_buf t b = (b', r) ->
    (br_lowat b < zlen data /\ rs_script (br_src b') = rs_script (br_src b) /\
       rs_asked (br_src b') = rs_asked (br_src b)) \/
    (zlen data <= br_lowat b /\ rs_script (br_src b) = [] /\ r = Blocked) \/
    (zlen data <= br_lowat b /\ exists a, rs_script (br_src b) = a :: rs_script (br_src b') /\
       rs_asked (br_src b') = rs_asked (br_src b) ++ [zlen free]).
  Proof.
    intros H E. destruct (fill_spec _ _ _ _ H) as (b1 & data1 & free1 & r1 & E1 & Bi1 & Lw & C).
    rewrite E1 in E. injection E as -> ->.
    destruct C as [(Hl & -> & _)|(Hl & d & res & ES & M)]; [left; auto|right].
    destruct H as (T & R & I & A & B & L & Hlw & Hh & Ho).
    destruct (src_read_spec _ _ _ _ _ (zlen_nonneg free) Hh ES) as (_ & _ & [(S0 & _ & _ & ->)|(a & Sa & Sb & _)]).
    - left. destruct M as (_ & _ & ->). auto.
    - right. split; [exact Hl|]. exists a. auto.
  Qed.

  Lemma find_none c l : find_byte c l = None -> ~ In c l.
  Proof.
    induction l as [|x l IH]; [intros _ []|]. cbn [find_byte]. destruct (Z.eqb_spec x c); [discriminate|].
    destruct (find_byte c l); [discriminate|]. intros _ [H|H]; [congruence|]. exact (IH eq_refl H).
  Qed.
  Lemma find_some_split c l k : find_byte c l = Some k ->
    0 <= k < zlen l /\ exists p, ztake (k + 1) l = p ++ [c] /\ ~ In c p.
  Proof.
    revert k. induction l as [|x l IH]; intros k; [discriminate|]. cbn [find_byte].
    destruct (Z.eqb_spec x c).
    - intros [= <-]. subst x. rewrite zlen_cons. pose proof (zlen_nonneg l). split; [lia|]. exists []. split; [reflexivity|intros []].
    - destruct (find_byte c l) as [j|]; [|discriminate]. intros [= <-].
      destruct (IH j eq_refl) as (Hj & p & Hp & Hn). rewrite zlen_cons. split; [lia|].
      exists (x :: p). split.
      + unfold ztake in *. replace (Z.to_nat (j + 1 + 1)) with (S (Z.to_nat (j + 1))) by lia.
        cbn [firstn app]. rewrite Hp. reflexivity.
      + intros [H|H]; [congruence|tauto].
  Qed.

  Definition until_measure (b : bufreader) (data : bytes) : nat :=
    (2 * length (rs_script (br_src b)) + (if (br_lowat b <? zlen data)%Z then 2 else 1))%nat.

  Lemma until_spec fuel : forall b c out acc data free, bi b (out ++ acc) data free -> ~ In c acc ->
    exists b' acc' data' free' r, br_until_loop t fuel b c acc = (b', acc', r) /\
      bi b' (out ++ acc') data' free' /\ br_lowat b' = br_lowat b /\
      match r with
      | Ret _ => (exists l, acc' = l ++ [c] /\ ~ In c l) \/
                 (~ In c acc' /\ data' = [] /\
                  exists b1 data1 free1 b2, bi b1 (out ++ acc') data1 free1 /\
                    src_read (zlen free1) (br_src b1) = (b2, [], Ret 0) /\ br_src b' = b2)
      | Err e => ~ In c acc' /\ io_kind_of e <> Interrupted
      | Panic => ~ In c acc'
      | Blocked => ~ In c acc' /\ ((until_measure b data <= fuel)%nat -> rs_script (br_src b') = [])
      | Fault => False
      end.
  Proof.
    induction fuel as [|f IH]; intros b c out acc data free H Hc.
    { cbn [br_until_loop]. exists b, acc, data, free, Blocked. split; [reflexivity|]. split; [exact H|].
      split; [reflexivity|]. split; [exact Hc|]. unfold until_measure. destruct (br_lowat b <? zlen data); lia. }
    cbn [br_until_loop].
    destruct (fill_spec _ _ _ _ H) as (b1 & data1 & free1 & r1 & E1 & Bi1 & Lw & C). rewrite E1.
    pose proof (fill_script _ _ _ _ _ _ H E1) as HS.
    assert (Hlw : 0 <= br_lowat b) by (destruct H as (? & ? & _ & _ & _ & _ & Hx & _); exact Hx).
    destruct r1 as [avail|e| | |].
    - assert (Hav : avail = data1).
      { destruct C as [(_ & -> & -> & Hr)|(_ & d & res & _ & M)]; [congruence|].
        destruct res; try (destruct M as (_ & M)); try discriminate M; try contradiction M.
        - destruct M as (_ & M). congruence.
        - destruct M as (_ & M). discriminate M. }
      subst avail. destruct (find_byte c data1) as [k|] eqn:Ef.
      + destruct (find_some_split _ _ _ Ef) as (Hk & p & Hp & Hnp).
        destruct (consume_spec _ _ _ _ (k + 1) Bi1) as (b2 & E2 & Bi2 & S2 & L2); [lia|]. rewrite E2.
        rewrite <- app_assoc in Bi2.
        do 5 eexists. split; [reflexivity|]. split; [exact Bi2|]. split; [congruence|].
        left. exists (acc ++ p). rewrite Hp, app_assoc. split; [reflexivity|].
        intros Hin. apply in_app_or in Hin. tauto.
      + destruct (consume_spec _ _ _ _ (zlen data1) Bi1 (zlen_nonneg _)) as (b2 & E2 & Bi2 & S2 & L2). rewrite E2.
        rewrite ztake_all, zdrop_all in Bi2 by lia. rewrite <- app_assoc in Bi2.
        pose proof (find_none _ _ Ef) as Hn.
        assert (Hc2 : ~ In c (acc ++ data1)) by (intros Hin; apply in_app_or in Hin; tauto).
        destruct (Z.eqb_spec (zlen data1) 0) as [Hz|Hz].
        * apply zlen_0 in Hz. subst data1. rewrite app_nil_r in *.
          do 5 eexists. split; [reflexivity|]. split; [exact Bi2|]. split; [congruence|].
          right. split; [exact Hc|]. split; [reflexivity|].
          destruct C as [(Hl & _ & Hd & _)|(Hl & d & res & ES & M)].
          { rewrite <- Hd in Hl. cbn in Hl. lia. }
          destruct res as [n|e| | |]; try (destruct M as (_ & M); discriminate M); try contradiction M.
          2:{ destruct M as (_ & _ & M). discriminate M. }
          destruct M as (Hk0 & Hd0 & _). symmetry in Hd0. apply app_eq_nil in Hd0. destruct Hd0 as [-> ->].
          exists b, [], free, (br_src b1). split; [exact H|]. split; [|congruence].
          rewrite ES. subst n. reflexivity.
        * destruct (IH b2 c out (acc ++ data1) [] _ Bi2 Hc2) as (b3 & acc3 & data3 & free3 & r3 & E3 & Bi3 & L3 & M3).
          exists b3, acc3, data3, free3, r3. split; [exact E3|]. split; [exact Bi3|]. split; [congruence|].
          destruct r3; try exact M3. destruct M3 as [M3 M3']. split; [exact M3|]. intros Hf. apply M3'.
          unfold until_measure in *. rewrite S2, L2, Lw.
          replace (br_lowat b <? zlen (@nil byte)) with false by (symmetry; apply Z.ltb_ge; cbn; lia).
          destruct HS as [(Hl & Hs & _)|[(_ & _ & Hx)|(Hl & a & Hs & _)]]; [|discriminate Hx|].
          -- rewrite Hs. destruct (Z.ltb_spec (br_lowat b) (zlen data)); lia.
          -- rewrite Hs in Hf. cbn [length] in Hf. destruct (br_lowat b <? zlen data); lia.
    - assert (Hd1 : data1 = data).
      { destruct C as [(_ & _ & _ & Hr)|(_ & d & res & _ & M)]; [discriminate Hr|].
        destruct res; try (destruct M as (M & _); exact M).
        - destruct M as (_ & _ & M). discriminate M.
        - contradiction M.
        - destruct M as (_ & M & _). exact M. }
      subst data1.
      assert (Hdec : exists a, rs_script (br_src b) = a :: rs_script (br_src b1)).
      { destruct C as [(_ & _ & _ & Hr)|(Hl0 & _)]; [discriminate Hr|].
        destruct HS as [(Hl & _)|[(_ & _ & Hx)|(Hl & a & Hs & _)]];
          [lia|discriminate Hx|exists a; exact Hs]. }
      destruct (io_kind_of e) eqn:Ek;
        try (exists b1, acc, data, free1, (Err e); split; [reflexivity|]; split; [exact Bi1|]; split; [exact Lw|];
             split; [exact Hc|]; rewrite Ek; discriminate).
      destruct (IH b1 c out acc data free1 Bi1 Hc) as (b3 & acc3 & data3 & free3 & r3 & E3 & Bi3 & L3 & M3).
      exists b3, acc3, data3, free3, r3. split; [exact E3|]. split; [exact Bi3|]. split; [congruence|].
      destruct r3; try exact M3. destruct M3 as [M3 M3']. split; [exact M3|]. intros Hf. apply M3'.
      destruct Hdec as [a Ha]. unfold until_measure in *. rewrite Ha in Hf. rewrite Lw. cbn [length] in Hf.
      destruct (br_lowat b <? zlen data); lia.
    - exists b1, acc, data1, free1, Panic. split; [reflexivity|]. split; [exact Bi1|]. split; [exact Lw|]. exact Hc.
    - exfalso. destruct C as [(_ & _ & _ & Hr)|(_ & d & res & _ & M)]; [discriminate Hr|].
      destruct res; try (destruct M as (_ & M); discriminate M); try contradiction M.
      + destruct M as (_ & _ & M). discriminate M.
      + destruct M as (_ & _ & M). discriminate M.
    - exists b1, acc, data1, free1, Blocked. split; [reflexivity|]. split; [exact Bi1|]. split; [exact Lw|].
      split; [exact Hc|]. intros _.
      destruct C as [(_ & _ & _ & Hr)|(Hl0 & d & res & ES & M)]; [discriminate Hr|].
      assert (res = Blocked).
      { destruct res; try reflexivity; try contradiction M; try (destruct M as (_ & M); discriminate M).
        destruct M as (_ & _ & M). discriminate M. }
      subst res. destruct M as (S0 & _ & _). unfold src_read in ES. rewrite S0 in ES.
      injection ES as <- _. exact S0.
  Qed.

  (** read consumes an answer or delivers at least one byte, unless n = 0. *)
  Lemma read_progress b out data free n b' d r : bi b out data free -> 0 < n ->
    br_read t b n = (b', d, r) ->
    (exists a, rs_script (br_src b) = a :: rs_script (br_src b')) \/
    (rs_script (br_src b') = rs_script (br_src b) /\
      ((exists k, r = Ret k /\ 0 < k) \/ (r = Blocked /\ rs_script (br_src b') = []))).
  Proof.
    intros H Hn E.
    destruct (read_spec b out data free n H ltac:(lia)) as (b1 & data1 & free1 & d1 & r1 & E1 & Lw & M & C).
    rewrite E1 in E. injection E as -> -> ->.
    pose proof H as (T & R & I & A & B & L & Hlw & Hh & Ho).
    destruct C as [(-> & Hcn & _ & ES)|(Hor & b1 & r1 & Ef & Es & C)].
    - destruct (src_read_spec _ _ _ _ _ (Z.lt_le_incl _ _ Hn) Hh ES) as (_ & _ & [(S0 & Hs & _ & ->)|(a & Sa & _)]).
      + right. rewrite Hs. auto.
      + left. exists a. exact Sa.
    - rewrite Es. destruct (fill_script _ _ _ _ _ _ H Ef) as [(Hl & Hs & _)|[(Hl & S0 & ->)|(Hl & a & Hs & _)]].
      + right. split; [exact Hs|]. destruct (fill_spec _ _ _ _ H) as (b2 & data2 & free2 & r2 & E2 & Bi2 & _ & C2).
        rewrite Ef in E2. injection E2 as -> ->.
        destruct C2 as [(_ & -> & -> & ->)|(Hl2 & _)]; [|lia].
        destruct C as (-> & _ & ->). left. eexists. split; [reflexivity|]. rewrite zlen_ztake by lia.
        pose proof (zlen_nonneg data). lia.
      + right. destruct (fill_spec _ _ _ _ H) as (b2 & data2 & free2 & r2 & E2 & Bi2 & _ & C2).
        rewrite Ef in E2. injection E2 as -> <-.
        destruct C2 as [(_ & _ & _ & X)|(_ & d2 & res2 & ES2 & _)]; [discriminate X|].
        unfold src_read in ES2. rewrite S0 in ES2. injection ES2 as <- _ _.
        destruct C as (_ & ->). split; [reflexivity|]. right. auto.
      + left. exists a. exact Hs.
  Qed.

  Lemma exact_spec fuel : forall b n out acc data free, bi b (out ++ acc) data free -> 0 <= n ->
    exists b' more data' free' r, br_exact_loop t fuel b n acc = (b', acc ++ more, r) /\
      bi b' (out ++ acc ++ more) data' free' /\ br_lowat b' = br_lowat b /\
      match r with
      | Ret _ => zlen more = n
      | Err e => zlen more < n /\ io_kind_of e <> Interrupted
      | Panic => zlen more < n
      | Blocked => zlen more < n /\
          ((Z.to_nat n + length (rs_script (br_src b)) + 1 <= fuel)%nat -> rs_script (br_src b') = [])
      | Fault => False
      end.
  Proof.
    induction fuel as [|f IH]; intros b n out acc data free H Hn.
    { cbn [br_exact_loop]. destruct (Z.leb_spec n 0).
      - exists b, [], data, free, (Ret tt). rewrite app_nil_r. split; [reflexivity|]. split; [exact H|].
        split; [reflexivity|]. cbn. lia.
      - exists b, [], data, free, Blocked. rewrite app_nil_r. split; [reflexivity|]. split; [exact H|].
        split; [reflexivity|]. cbn. lia. }
    cbn [br_exact_loop]. destruct (Z.leb_spec n 0).
    { exists b, [], data, free, (Ret tt). rewrite app_nil_r. split; [reflexivity|]. split; [exact H|].
      split; [reflexivity|]. cbn. lia. }
    destruct (read_spec b _ data free n H Hn) as (b1 & data1 & free1 & d1 & r1 & E1 & Lw & M & C). rewrite E1.
    pose proof (read_progress b _ data free n b1 d1 _ H ltac:(lia) E1) as HP.
    assert (Hd1 : match r1 with Ret _ => zlen d1 <= n | _ => True end).
    { destruct r1; auto. destruct C as [(_ & _ & _ & ES)|(_ & b2 & r2 & _ & _ & C)].
      - destruct H as (T & R & I & A & B & L & Hlw & Hh & Ho).
        destruct (src_read_spec _ _ _ _ _ Hn Hh ES) as (_ & Hx & _). exact Hx.
      - destruct r2; try contradiction C; try (destruct C as (_ & C); discriminate C).
        destruct C as (-> & _). rewrite zlen_ztake by lia. lia. }
    destruct r1 as [k|e| | |]; try contradiction M.
    - destruct M as (-> & Bi1). destruct (Z.eqb_spec (zlen d1) 0) as [Hz|Hz].
      + apply zlen_0 in Hz. subst d1. rewrite app_nil_r in Bi1.
        exists b1, [], data1, free1, (Err (IoSimple UnexpectedEof)). rewrite app_nil_r.
        split; [reflexivity|]. split; [exact Bi1|]. split; [exact Lw|]. split; [cbn; lia|discriminate].
      + destruct (Z.ltb_spec n (zlen d1)); [lia|]. rewrite <- app_assoc in Bi1.
        destruct (IH b1 (n - zlen d1) out (acc ++ d1) data1 free1 Bi1 ltac:(lia)) as (b3 & m3 & data3 & free3 & r3 & E3 & Bi3 & L3 & M3).
        pose proof (zlen_nonneg d1) as Hd0.
        exists b3, (d1 ++ m3), data3, free3, r3. rewrite <- app_assoc in E3, Bi3.
        split; [exact E3|]. split; [exact Bi3|]. split; [congruence|]. rewrite zlen_app.
        destruct r3; try contradiction M3; try lia.
        * destruct M3. split; [lia|assumption].
        * destruct M3 as [M3 M3']. split; [lia|]. intros Hf. apply M3'.
          destruct HP as [(a & Ha)|(Hs & _)]; [rewrite Ha in Hf; cbn [length] in Hf; lia|rewrite Hs; lia].
    - assert (Hdec : exists a, rs_script (br_src b) = a :: rs_script (br_src b1)).
      { destruct HP as [HP|(_ & [(k & HP & _)|(HP & _)])]; [exact HP|discriminate HP|discriminate HP]. }
      destruct (io_kind_of e) eqn:Ek;
        try (exists b1, [], data1, free1, (Err e); rewrite app_nil_r; split; [reflexivity|]; split; [exact M|];
             split; [exact Lw|]; split; [cbn; lia|rewrite Ek; discriminate]).
      destruct (IH b1 n out acc data1 free1 M Hn) as (b3 & m3 & data3 & free3 & r3 & E3 & Bi3 & L3 & M3).
      exists b3, m3, data3, free3, r3. split; [exact E3|]. split; [exact Bi3|]. split; [congruence|].
      destruct r3; try exact M3. destruct M3 as [M3 M3']. split; [exact M3|]. intros Hf. apply M3'.
      destruct Hdec as [a Ha]. rewrite Ha in Hf. cbn [length] in Hf. lia.
    - exists b1, [], data1, free1, Panic. rewrite app_nil_r. split; [reflexivity|]. split; [exact M|].
      split; [exact Lw|]. cbn. lia.
    - exists b1, [], data1, free1, Blocked. rewrite app_nil_r. split; [reflexivity|]. split; [exact M|].
      split; [exact Lw|]. split; [cbn; lia|]. intros _.
      destruct HP as [(a & Ha)|(Hs & [(k & HP & _)|(_ & HP)])]; [|discriminate HP|exact HP].
      destruct C as [(-> & Hcn & _ & ES)|(Hor & b2 & r2 & Ef & Es & C)].
      + unfold src_read in ES. rewrite Ha in ES. destruct a; discriminate ES.
      + destruct r2; try contradiction C; try (destruct C as (_ & C); discriminate C).
        * destruct C as (_ & _ & C). discriminate C.
        * rewrite Es in Ha. destruct (fill_spec _ _ _ _ H) as (b4 & data4 & free4 & r4 & E4 & Bi4 & _ & C4).
          rewrite Ef in E4. injection E4 as -> <-.
          destruct C4 as [(_ & _ & _ & X)|(_ & d4 & res4 & ES4 & M4)]; [discriminate X|].
          destruct res4; try contradiction M4; try (destruct M4 as (_ & M4); discriminate M4).
          -- destruct M4 as (_ & _ & X). discriminate X.
          -- destruct M4 as (S0 & _). rewrite S0 in Ha. discriminate Ha.
  Qed.

  (** One call. *)
  Lemma br_step_spec b o out data free : bi b out data free -> brop_ok t o ->
    exists b' d data' free' r, br_step t b o = (b', d, r) /\ bi b' (out ++ d) data' free' /\
      match r with Fault => False | Blocked => rs_script (br_src b') = [] | _ => True end.
  Proof.
    intros H Ho. assert (Hlw0 : 0 <= br_lowat b) by (destruct H as (? & ? & _ & _ & _ & _ & Hx & _); exact Hx).
    destruct o as [n| |n|n|c|n]; cbn [br_step brop_ok] in *; unfold is_usize in *.
    - destruct (read_spec b out data free n H ltac:(lia)) as (b1 & data1 & free1 & d1 & r1 & E1 & Lw & M & C).
      rewrite E1. destruct r1 as [k|e| | |]; try contradiction M; cbn [obind].
      + destruct M as (-> & Bi1). rewrite ztake_all by lia. do 5 eexists. split; [reflexivity|]. split; [exact Bi1|exact I].
      + do 5 eexists. split; [reflexivity|]. rewrite app_nil_r. split; [exact M|exact I].
      + do 5 eexists. split; [reflexivity|]. rewrite app_nil_r. split; [exact M|exact I].
      + do 5 eexists. split; [reflexivity|]. rewrite app_nil_r. split; [exact M|].
        destruct (Z.eq_dec n 0) as [->|Hn].
        * destruct C as [(_ & Hx & _)|(_ & b2 & r2 & Ef & Es & C)]; [lia|].
          destruct r2; try contradiction C; try (destruct C as (_ & C); discriminate C).
          { destruct C as (_ & _ & C). discriminate C. }
          rewrite Es. destruct (fill_spec _ _ _ _ H) as (b4 & data4 & free4 & r4 & E4 & Bi4 & _ & C4).
          rewrite Ef in E4. injection E4 as -> <-.
          destruct C4 as [(_ & _ & _ & X)|(_ & d4 & res4 & ES4 & M4)]; [discriminate X|].
          destruct res4; try contradiction M4; try (destruct M4 as (_ & M4); discriminate M4).
          -- destruct M4 as (_ & _ & X). discriminate X.
          -- destruct M4 as (S0 & _). unfold src_read in ES4. rewrite S0 in ES4. injection ES4 as <- _. exact S0.
        * destruct (read_progress b _ data free n b1 d1 _ H ltac:(lia) E1) as [(a & Ha)|(Hs & [(k & HP & _)|(_ & HP)])];
            [|discriminate HP|exact HP].
          destruct C as [(-> & Hcn & _ & ES)|(Hor & b2 & r2 & Ef & Es & C)].
          -- unfold src_read in ES. rewrite Ha in ES. destruct a; discriminate ES.
          -- destruct r2; try contradiction C; try (destruct C as (_ & C); discriminate C).
             { destruct C as (_ & _ & C). discriminate C. }
             rewrite Es in Ha. destruct (fill_spec _ _ _ _ H) as (b4 & data4 & free4 & r4 & E4 & Bi4 & _ & C4).
             rewrite Ef in E4. injection E4 as -> <-.
             destruct C4 as [(_ & _ & _ & X)|(_ & d4 & res4 & ES4 & M4)]; [discriminate X|].
             destruct res4; try contradiction M4; try (destruct M4 as (_ & M4); discriminate M4).
             ++ destruct M4 as (_ & _ & X). discriminate X.
             ++ destruct M4 as (S0 & _). rewrite S0 in Ha. discriminate Ha.
    - destruct (fill_spec _ _ _ _ H) as (b1 & data1 & free1 & r1 & E1 & Bi1 & Lw & C). rewrite E1.
      exists b1, [], data1, free1, (obind r1 (fun _ => Ret tt)). split; [reflexivity|]. rewrite app_nil_r.
      split; [exact Bi1|].
      destruct C as [(_ & _ & _ & ->)|(_ & d & res & ES & M)]; [exact I|].
      destruct res; try (destruct M as (_ & ->); exact I).
      + destruct M as (_ & _ & ->). exact I.
      + contradiction M.
      + destruct M as (S0 & _ & ->). cbn [obind]. unfold src_read in ES. rewrite S0 in ES. injection ES as <- _. exact S0.
    - destruct (bi_ring _ _ _ _ H) as (_ & _ & EB). rewrite EB.
      destruct (consume_spec _ _ _ _ n H ltac:(lia)) as (b2 & E2 & Bi2 & S2 & L2). rewrite E2.
      do 5 eexists. split; [reflexivity|]. split; [exact Bi2|exact I].
    - exists (br_set_lowat b n), [], data, free, (Ret tt). split; [reflexivity|]. rewrite app_nil_r.
      split; [|exact I]. destruct H as (T & R & I & A & B & L & Hlw & Hh & Ho').
      exists T, R. cbn [br_set_lowat br_ring br_src br_lowat]. split; [exact I|]. split; [exact A|].
      split; [exact B|]. split; [exact L|]. split; [lia|]. auto.
    - unfold br_read_until. pose proof H as H0. rewrite <- (app_nil_r out) in H0.
      destruct (until_spec (2 * length (rs_script (br_src b)) + 3) b c out [] data free H0) as
        (b' & acc' & data' & free' & r & E & Bi & _ & M); [intros []|].
      rewrite E. do 5 eexists. split; [reflexivity|]. split; [exact Bi|].
      destruct r; auto. destruct M as [_ M]. apply M. unfold until_measure. destruct (br_lowat b <? zlen data); lia.
    - unfold br_read_exact. pose proof H as H0. rewrite <- (app_nil_r out) in H0.
      destruct (exact_spec (Z.to_nat n + length (rs_script (br_src b)) + 1) b n out [] data free H0) as
        (b' & acc' & data' & free' & r & E & Bi & _ & M); [lia|].
      rewrite E. do 5 eexists. split; [reflexivity|]. split; [exact Bi|].
      destruct r; auto. destruct M as [_ M]. apply M. lia.
  Qed.

  Lemma br_run_spec os : forall b out data free, bi b out data free -> Forall (brop_ok t) os ->
    exists b' d data' free' rs, br_run t b os = (b', d, rs) /\ bi b' (out ++ d) data' free' /\
      Forall (fun r => r <> Fault) rs /\
      (forall pre, rs = pre ++ [Blocked] -> rs_script (br_src b') = []).
  Proof.
    induction os as [|o os IH]; intros b out data free H Ho.
    - cbn [br_run]. exists b, [], data, free, []. rewrite app_nil_r. split; [reflexivity|]. split; [exact H|].
      split; [constructor|]. intros pre Hp. destruct pre; discriminate Hp.
    - inversion Ho as [|? ? Ho1 Ho2]; subst. cbn [br_run].
      destruct (br_step_spec b o out data free H Ho1) as (b1 & d1 & data1 & free1 & r1 & E1 & Bi1 & M1). rewrite E1.
      destruct r1 as [u|e| | |]; try contradiction M1.
      4:{ do 5 eexists. split; [reflexivity|]. split; [exact Bi1|]. split; [repeat constructor; discriminate|].
          intros _ _. exact M1. }
      all: destruct (IH b1 (out ++ d1) data1 free1 Bi1 Ho2) as (b2 & d2 & data2 & free2 & rs2 & E2 & Bi2 & F2 & K2);
        rewrite E2; rewrite <- app_assoc in Bi2; do 5 eexists; (split; [reflexivity|]); (split; [exact Bi2|]);
        (split; [constructor; [discriminate|exact F2]|]);
        intros pre Hp; (destruct pre as [|p pre]; [discriminate Hp|]); injection Hp as _ Hp; exact (K2 pre Hp).
  Qed.

  Lemma br_new_bi script m asked : Forall honest script ->
    bi (br_new {| rs_src := src0; rs_script := script; rs_asked := asked |} cap m) [] [] (view m 0 cap).
  Proof.
    intros Hh. exists 0, 0. cbn [br_new br_ring br_src br_lowat rs_src rs_script].
    split; [apply (make_inv t Hbits); lia|]. split.
    { unfold absq. cbn [ring_make r_len r_mem]. replace (cap - (0 - 0)) with cap by lia.
      rewrite mirror_id by lia. reflexivity. }
    split; [lia|]. split; [reflexivity|]. split; [lia|]. split; [exact Hh|reflexivity].
  Qed.
End R.
