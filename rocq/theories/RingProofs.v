(** [Ring] refines the bounded queue of RingSpec.v. *)
From Coq Require Import Lia Znumtheory.
From Verif Require Import Base ErrorModel RingSpec RingModel SeqProofs SizeProofs.

(** ** Positions modulo 2^64 *)

Lemma wrap_mod {E} c n x : 0 <= n -> (0 <= x < 2 ^ n \/ c = false) ->
  wrap (E:=E) c n x = Ret (x mod 2 ^ n).
Proof.
  intros Hn [H|H].
  - rewrite wrap_in by exact H. rewrite Z.mod_small by exact H. reflexivity.
  - subst c. unfold wrap. destruct ((0 <=? x) && (x <? 2 ^ n)) eqn:He; [|reflexivity].
    apply andb_prop in He. destruct He as [H1 H2]. apply Z.leb_le in H1. apply Z.ltb_lt in H2.
    rewrite Z.mod_small by lia. reflexivity.
Qed.

Lemma wrap_add_pos {E} c T k : 0 <= T -> 0 <= k -> (T + k < 2 ^ 64 \/ c = false) ->
  wrap (E:=E) c 64 (T mod 2 ^ 64 + k) = Ret ((T + k) mod 2 ^ 64).
Proof.
  intros HT Hk H. rewrite wrap_mod; [|lia|].
  - rewrite Zplus_mod_idemp_l. reflexivity.
  - destruct H as [H|H]; [left|right; exact H]. rewrite Z.mod_small by lia. lia.
Qed.

Lemma wrap_sub_pos {E} c T R : 0 <= R <= T -> T - R < 2 ^ 64 -> (T < 2 ^ 64 \/ c = false) ->
  wrap (E:=E) c 64 (T mod 2 ^ 64 - R mod 2 ^ 64) = Ret (T - R).
Proof.
  intros HR Hd H. rewrite wrap_mod; [|lia|].
  - rewrite <- Zminus_mod. rewrite Z.mod_small by lia. reflexivity.
  - destruct H as [H|H]; [left|right; exact H]. rewrite !Z.mod_small by lia. lia.
Qed.

Lemma pow2_div_64 w : 0 <= w <= 64 -> (2 ^ w | 2 ^ 64).
Proof. intros H. exists (2 ^ (64 - w)). rewrite <- Z.pow_add_r by lia. f_equal. lia. Qed.

Section R.
  Variable t : target.
  Hypothesis Hbits : 32 <= t_bits t <= 64.

  Local Notation pos_ok := (pos_ok t).
  Local Notation rop_ok := (rop_ok t).
  Local Notation history_ok := (history_ok t).

  Lemma word_le : 2 ^ t_bits t <= 2 ^ 64.
  Proof. apply Z.pow_le_mono_r; lia. Qed.
  Lemma word_pos : 2 ^ 32 <= 2 ^ t_bits t.
  Proof. apply Z.pow_le_mono_r; lia. Qed.

  Lemma pos_ok_le len X Y : pos_ok len Y -> X <= Y -> pos_ok len X.
  Proof. intros [[H1|H1] [H2|H2]] H; split; (left; lia) || (right; assumption). Qed.

  Lemma offset_exact len X : 0 < len -> 0 <= X -> pos_ok len X ->
    (X mod 2 ^ 64) mod 2 ^ t_bits t mod len = X mod len.
  Proof.
    intros Hl HX [_ [H|H]]; pose proof word_le; pose proof word_pos.
    - rewrite (Z.mod_small X) by lia. rewrite (Z.mod_small X) by lia. reflexivity.
    - rewrite <- (Zmod_div_mod (2 ^ t_bits t) (2 ^ 64) X); [|lia|lia|apply pow2_div_64; lia].
      rewrite <- (Zmod_div_mod len (2 ^ t_bits t) X); [reflexivity|lia|lia|exact H].
  Qed.

  Record inv (r : ring) (T R : Z) : Prop := {
    inv_len : 0 < r_len r;
    inv_word : 2 * r_len r <= 2 ^ t_bits t;
    inv_R : 0 <= R;
    inv_RT : R <= T;
    inv_T : T <= R + r_len r;
    inv_rpos : r_rpos r = R mod 2 ^ 64;
    inv_wpos : r_wpos r = T mod 2 ^ 64;
    inv_ok : pos_ok (r_len r) T
  }.

  (** The queue a ring represents. *)
  Definition absq (r : ring) (T R : Z) : queue :=
    {| q_data := view (mirror (r_mem r) (r_len r)) R (T - R);
       q_free := view (mirror (r_mem r) (r_len r)) T (r_len r - (T - R)) |}.

  Lemma absq_data_len r T R : inv r T R -> zlen (q_data (absq r T R)) = T - R.
  Proof. intros []. cbn [absq q_data]. rewrite view_len. lia. Qed.
  Lemma absq_free_len r T R : inv r T R -> zlen (q_free (absq r T R)) = r_len r - (T - R).
  Proof. intros []. cbn [absq q_free]. rewrite view_len. lia. Qed.

  Section Obs.
    Variables (r : ring) (T R : Z).
    Hypothesis I : inv r T R.

    Lemma read_len_eq : ring_read_len t r = Ret (T - R).
    Proof.
      destruct I. pose proof word_le. unfold ring_read_len, sub64.
      rewrite inv_rpos0, inv_wpos0.
      rewrite wrap_sub_pos; [|lia|lia|apply inv_ok0].
      cbn [obind]. unfold as_usize. rewrite Z.mod_small by lia. reflexivity.
    Qed.

    Lemma write_len_eq : ring_write_len t r = Ret (r_len r - (T - R)).
    Proof.
      unfold ring_write_len. rewrite read_len_eq. cbn [obind].
      destruct I. unfold ring_write_capacity, usub. apply wrap_in. lia.
    Qed.

    Lemma urem_pos x : urem x (r_len r) = Ret (x mod r_len r).
    Proof. destruct I. unfold urem. destruct (Z.eqb_spec (r_len r) 0); [lia|reflexivity]. Qed.

    Lemma read_offset_eq : ring_read_offset t r = Ret (R mod r_len r).
    Proof.
      unfold ring_read_offset. rewrite urem_pos. f_equal. destruct I.
      rewrite inv_rpos0. unfold as_usize. apply offset_exact; [lia|lia|].
      eapply pos_ok_le; [exact inv_ok0|lia].
    Qed.

    Lemma write_offset_eq : ring_write_offset t r = Ret (T mod r_len r).
    Proof.
      unfold ring_write_offset. rewrite urem_pos. f_equal. destruct I.
      rewrite inv_wpos0. unfold as_usize. apply offset_exact; [lia|lia|exact inv_ok0].
    Qed.

    Lemma vslice_eq X n : 0 <= n <= r_len r ->
      vslice (r_len r) (r_mem r) (X mod r_len r) n =
      Ret (view (mirror (r_mem r) (r_len r)) X n).
    Proof.
      intros Hn. destruct I. unfold vslice.
      pose proof (Z.mod_pos_bound X (r_len r) inv_len0).
      destruct (Z.leb_spec 0 (X mod r_len r)); [|lia].
      destruct (Z.leb_spec 0 n); [|lia].
      destruct (Z.leb_spec (X mod r_len r + n) (2 * r_len r)); [|lia].
      cbn [andb]. f_equal. apply view_mirror_mod; [lia|]. apply Z.mod_mod. lia.
    Qed.

    Lemma read_slice_eq max : 0 <= max ->
      ring_read_slice t r max = Ret (ztake max (q_data (absq r T R))).
    Proof.
      intros Hm. unfold ring_read_slice. rewrite read_offset_eq, read_len_eq. cbn [obind].
      destruct I. rewrite vslice_eq by lia. cbn [absq q_data].
      rewrite ztake_view by lia. f_equal. f_equal. lia.
    Qed.

    Lemma write_slice_eq max : 0 <= max ->
      ring_write_slice t r max = Ret (ztake max (q_free (absq r T R))).
    Proof.
      intros Hm. unfold ring_write_slice. rewrite write_offset_eq, write_len_eq. cbn [obind].
      destruct I. rewrite vslice_eq by lia. cbn [absq q_free].
      rewrite ztake_view by lia. f_equal. f_equal. lia.
    Qed.

    Lemma consume_eq n : 0 <= n ->
      exists r', ring_consume t r n = Ret r' /\ inv r' T (R + Z.min n (T - R)) /\
        absq r' T (R + Z.min n (T - R)) = q_remove (absq r T R) n /\ r_len r' = r_len r.
    Proof.
      intros Hn. unfold ring_consume. rewrite read_len_eq. cbn [obind].
      set (k := Z.min n (T - R)). pose proof word_le. destruct I.
      unfold as_u64. rewrite Z.mod_small by lia. unfold add64. rewrite inv_rpos0.
      assert (Hok : R + k < 2 ^ 64 \/ t_checks t = false).
      { destruct inv_ok0 as [[Ho|Ho] _]; [left; lia|right; exact Ho]. }
      rewrite wrap_add_pos; [|lia|lia|exact Hok]. cbn [obind].
      eexists. split; [reflexivity|]. split; [|split; [|reflexivity]].
      - constructor; cbn [r_len r_rpos r_wpos]; try assumption; lia.
      - unfold absq, q_remove; cbn [r_len r_mem q_data q_free].
        rewrite zdrop_view by lia. rewrite ztake_view by lia. fold k.
        assert (Hk : k = n \/ T - R <= n) by lia.
        f_equal.
        + destruct Hk as [Hk|Hk]; [rewrite Hk; f_equal; lia|].
          rewrite !view_0 by lia. reflexivity.
        + replace (r_len r - (T - (R + k))) with ((r_len r - (T - R)) + k) by lia.
          rewrite view_app by lia. f_equal.
          replace (T + (r_len r - (T - R))) with (R + r_len r) by lia.
          apply view_mirror_turn. lia.
    Qed.

    Lemma feed_eq n : 0 <= n -> pos_ok (r_len r) (T + Z.min n (r_len r - (T - R))) ->
      exists r', ring_feed t r n = Ret r' /\
        inv r' (T + Z.min n (r_len r - (T - R))) R /\
        absq r' (T + Z.min n (r_len r - (T - R))) R =
          q_append (absq r T R) (ztake n (q_free (absq r T R))) /\ r_len r' = r_len r.
    Proof.
      intros Hn Hok. unfold ring_feed. rewrite write_len_eq. cbn [obind].
      set (k := Z.min n (r_len r - (T - R))) in *. pose proof word_le. destruct I.
      unfold as_u64. rewrite Z.mod_small by lia. unfold add64. rewrite inv_wpos0.
      rewrite wrap_add_pos; [|lia|lia|apply Hok]. cbn [obind].
      eexists. split; [reflexivity|]. split; [|split; [|reflexivity]].
      - constructor; cbn [r_len r_rpos r_wpos]; try assumption; lia.
      - unfold absq, q_append; cbn [r_len r_mem q_data q_free].
        rewrite ztake_view by lia. fold k.
        replace (T + k - R) with ((T - R) + k) by lia. rewrite view_app by lia.
        f_equal.
        + f_equal. f_equal. lia.
        + rewrite view_len. rewrite zdrop_view by lia.
          replace (Z.max 0 k) with k by lia. f_equal. lia.
    Qed.

    Lemma slice_store_ok max i d : 0 <= max -> 0 <= i ->
      i + zlen d <= Z.min (r_len r - (T - R)) max ->
      exists r', ring_slice_store t r max i d = Ret r' /\ inv r' T R /\
        absq r' T R = {| q_data := q_data (absq r T R);
          q_free := ztake i (q_free (absq r T R)) ++ d ++
                    zdrop (i + zlen d) (q_free (absq r T R)) |} /\
        r_len r' = r_len r /\ r_rpos r' = r_rpos r /\ r_wpos r' = r_wpos r.
    Proof.
      intros Hm Hi Hd. unfold ring_slice_store.
      rewrite write_offset_eq, write_slice_eq by exact Hm. cbn [obind].
      rewrite zlen_ztake by exact Hm. rewrite (absq_free_len r T R I).
      destruct (Z.leb_spec 0 i); [|lia].
      destruct (Z.leb_spec (i + zlen d) (Z.min max (r_len r - (T - R)))); [|lia].
      cbn [andb]. eexists. split; [reflexivity|]. pose proof (zlen_nonneg d). destruct I.
      split; [constructor; cbn [r_len r_rpos r_wpos]; assumption|].
      split; [|repeat split]. unfold absq; cbn [r_len r_mem q_data q_free].
      rewrite (vstore_mod (r_len r) (r_mem r) (T mod r_len r + i) (T + i) d);
        [|lia|rewrite Zplus_mod_idemp_l; reflexivity].
      set (m' := vstore (r_len r) (r_mem r) (T + i) d).
      f_equal.
      - (* readable bytes lie behind the stored ones *)
        rewrite <- (view_mirror_turn m' (r_len r) R) by lia.
        rewrite <- (view_mirror_turn (r_mem r) (r_len r) R) by lia.
        replace (R + r_len r) with ((T + i) + (R + r_len r - T - i)) by lia.
        unfold m'. apply vstore_view_out; lia.
      - rewrite ztake_view, zdrop_view by lia.
        replace (Z.min i (r_len r - (T - R))) with i by lia.
        replace (r_len r - (T - R)) with (i + (zlen d + (r_len r - (T - R) - (i + zlen d)))) at 1 by lia.
        rewrite view_app, view_app by lia. f_equal; [|f_equal].
        + (* before the stored bytes: behind them after one turn *)
          rewrite <- (view_mirror_turn m' (r_len r) T) by lia.
          rewrite <- (view_mirror_turn (r_mem r) (r_len r) T) by lia.
          replace (T + r_len r) with ((T + i) + (r_len r - i)) by lia.
          unfold m'. apply vstore_view_out; lia.
        + unfold m'. apply vstore_view_in; lia.
        + replace (T + i + zlen d) with ((T + i) + zlen d) by lia.
          replace (T + (i + zlen d)) with ((T + i) + zlen d) by lia.
          unfold m'. apply vstore_view_out; lia.
    Qed.

    Lemma slice_store_bad max i d : 0 <= max ->
      ~ (0 <= i /\ i + zlen d <= Z.min (r_len r - (T - R)) max) ->
      ring_slice_store t r max i d = Panic.
    Proof.
      intros Hm Hn. unfold ring_slice_store.
      rewrite write_offset_eq, write_slice_eq by exact Hm. cbn [obind].
      rewrite zlen_ztake by exact Hm. rewrite (absq_free_len r T R I).
      destruct (Z.leb_spec 0 i); [|reflexivity].
      destruct (Z.leb_spec (i + zlen d) (Z.min max (r_len r - (T - R)))); [lia|reflexivity].
    Qed.
  End Obs.

  (** [write_into] and [put_slice] both store at the front of the write slice
      and feed. *)
  Lemma store_feed r T R max d n : inv r T R -> 0 <= max -> n = zlen d ->
    n <= Z.min (r_len r - (T - R)) max -> pos_ok (r_len r) (T + n) ->
    exists r', (let* r1 := ring_slice_store t r max 0 d in ring_feed t r1 n) = Ret r' /\
      inv r' (T + n) R /\ absq r' (T + n) R = q_append (absq r T R) d /\ r_len r' = r_len r.
  Proof.
    intros I Hm -> Hd Hok. pose proof (zlen_nonneg d) as Hd0.
    destruct (slice_store_ok r T R I max 0 d Hm) as (r1 & E1 & I1 & A1 & L1 & _ & _); [lia|lia|].
    rewrite E1. cbn [obind].
    destruct (feed_eq r1 T R I1 (zlen d) Hd0) as (r2 & E2 & I2 & A2 & L2).
    { rewrite L1. replace (Z.min (zlen d) (r_len r - (T - R))) with (zlen d) by lia. exact Hok. }
    rewrite L1 in *. replace (Z.min (zlen d) (r_len r - (T - R))) with (zlen d) in * by lia.
    exists r2. split; [exact E2|]. split; [exact I2|]. split; [|lia].
    rewrite A2, A1. unfold q_append; cbn [q_data q_free].
    rewrite (ztake_neg 0) by lia. cbn [app]. rewrite Z.add_0_l.
    rewrite ztake_app_l by lia. rewrite ztake_all by lia. f_equal.
    rewrite zdrop_app_r by lia. rewrite Z.sub_diag. apply zdrop_neg. lia.
  Qed.

  Lemma write_eq r T R b : inv r T R ->
    let n := Z.min (zlen b) (r_len r - (T - R)) in
    pos_ok (r_len r) (T + n) ->
    exists r', ring_write t r b = Ret (r', n) /\ inv r' (T + n) R /\
      absq r' (T + n) R = q_append (absq r T R) (ztake n b) /\ r_len r' = r_len r.
  Proof.
    intros I n Hok. pose proof (zlen_nonneg b) as Hb. unfold ring_write.
    rewrite (write_slice_eq r T R I) by exact Hb. cbn [obind].
    rewrite zlen_ztake by exact Hb. rewrite (absq_free_len r T R I). fold n.
    assert (Hn : 0 <= n) by (destruct I; lia).
    destruct (store_feed r T R (zlen b) (ztake n b) n I Hb) as (r' & E & I' & A & L).
    { rewrite zlen_ztake by exact Hn. lia. }
    { lia. }
    { exact Hok. }
    destruct (ring_slice_store t r (zlen b) 0 (ztake n b)) as [r1| | | |] eqn:E1;
      try discriminate E. cbn [obind] in *. rewrite E. cbn [obind].
    exists r'. auto.
  Qed.

  Lemma read_eq r T R n : inv r T R -> 0 <= n ->
    exists r', ring_read t r n = Ret (r', ztake n (q_data (absq r T R))) /\
      inv r' T (R + Z.min n (T - R)) /\
      absq r' T (R + Z.min n (T - R)) = q_remove (absq r T R) n /\ r_len r' = r_len r.
  Proof.
    intros I Hn. unfold ring_read. rewrite (read_slice_eq r T R I) by exact Hn. cbn [obind].
    rewrite zlen_ztake by exact Hn. rewrite (absq_data_len r T R I).
    destruct (consume_eq r T R I (Z.min n (T - R))) as (r' & E & I' & A & L); [destruct I; lia|].
    rewrite E. cbn [obind]. replace (Z.min (Z.min n (T - R)) (T - R)) with (Z.min n (T - R)) in * by lia.
    exists r'. split; [reflexivity|]. split; [exact I'|]. split; [|exact L].
    rewrite A. unfold q_remove. rewrite <- (absq_data_len r T R I).
    rewrite zdrop_min, ztake_min. reflexivity.
  Qed.

  Lemma write_all_eq r T R b : inv r T R ->
    let n := Z.min (zlen b) (r_len r - (T - R)) in
    pos_ok (r_len r) (T + n) ->
    exists r', ring_write_all t r b =
        Ret (r', if zlen b <=? r_len r - (T - R) then None else Some (IoSimple WriteZero)) /\
      inv r' (T + n) R /\
      absq r' (T + n) R = q_append (absq r T R) (ztake n b) /\ r_len r' = r_len r.
  Proof.
    intros I n Hok. unfold ring_write_all. pose proof (zlen_nonneg b) as Hb.
    destruct b as [|b0 b'].
    - cbn [length ring_write_all_loop]. subst n. rewrite zlen_nil in *.
      destruct (Z.leb_spec 0 (r_len r - (T - R))); [|destruct I; lia].
      replace (T + Z.min 0 (r_len r - (T - R))) with T by lia.
      exists r. split; [reflexivity|]. split; [exact I|]. split; [|reflexivity].
      unfold q_append. rewrite ztake_neg by lia. rewrite app_nil_r, zlen_nil.
      rewrite zdrop_neg by lia. destruct (absq r T R); reflexivity.
    - set (b := b0 :: b') in *. change (length b) with (S (length b')).
      destruct (write_eq r T R b I Hok) as (r1 & E1 & I1 & A1 & L1). fold n in E1, I1, A1.
      unfold b at 1. cbn [ring_write_all_loop]. fold b. rewrite E1. cbn [obind].
      assert (Hn : 0 <= n) by (destruct I; lia).
      destruct (Z.leb_spec (zlen b) (r_len r - (T - R))) as [Hf|Hf].
      + (* fits: one round, then the buffer is empty *)
        assert (Hnb : n = zlen b) by lia.
        assert (Hpos : 0 < zlen b) by (unfold b; rewrite zlen_cons; pose proof (zlen_nonneg b'); lia).
        destruct (Z.eqb_spec n 0); [lia|].
        rewrite zdrop_all by lia.
        exists r1. split; [destruct (length b'); reflexivity|]. auto.
      + destruct (Z.eqb_spec n 0) as [Hz|Hz].
        * exists r1. auto.
        * (* a second round finds the ring full *)
          assert (Hfull : n = r_len r - (T - R)) by lia.
          assert (Hrest : 0 < zlen (zdrop n b)) by (rewrite zlen_zdrop by lia; lia).
          destruct (length b') as [|f] eqn:Hlen.
          { assert (zlen b = 1) by (unfold zlen; change (length b) with (S (length b')); lia). lia. }
          destruct (zdrop n b) as [|c0 c'] eqn:Hc; [cbn in Hrest; lia|].
          cbn [ring_write_all_loop].
          destruct (write_eq r1 (T + n) R (c0 :: c') I1) as (r2 & E2 & I2 & A2 & L2).
          { rewrite L1. eapply pos_ok_le; [exact Hok|]. lia. }
          rewrite L1 in *.
          replace (Z.min (zlen (c0 :: c')) (r_len r - (T + n - R))) with 0 in * by lia.
          rewrite E2. cbn [obind Z.eqb]. rewrite Z.add_0_r in *.
          exists r2. split; [reflexivity|]. split; [exact I2|]. split; [|lia].
          rewrite A2, A1. unfold q_append. cbn [q_data q_free].
          rewrite (ztake_neg 0) by lia. rewrite app_nil_r, zlen_nil.
          rewrite (zdrop_neg 0) by lia. reflexivity.
  Qed.

  (** ** read_until *)

  Lemma find_byte_some d l k : find_byte d l = Some k ->
    0 <= k < zlen l /\ through d l = ztake (k + 1) l.
  Proof.
    revert k. induction l as [|b l IH]; intros k H; [discriminate|].
    cbn [find_byte through] in *. rewrite zlen_cons. pose proof (zlen_nonneg l).
    destruct (b =? d).
    - injection H as <-. split; [lia|reflexivity].
    - destruct (find_byte d l) as [j|]; [|discriminate]. injection H as <-.
      destruct (IH j eq_refl) as [Hj Ht]. split; [lia|].
      rewrite Ht. unfold ztake. replace (Z.to_nat (j + 1 + 1)) with (S (Z.to_nat (j + 1))) by lia.
      reflexivity.
  Qed.

  Lemma find_byte_none d l : find_byte d l = None -> through d l = l.
  Proof.
    induction l as [|b l IH]; intros H; [reflexivity|].
    cbn [find_byte through] in *. destruct (b =? d); [discriminate|].
    destruct (find_byte d l); [discriminate|]. rewrite IH by reflexivity. reflexivity.
  Qed.

  Lemma umax_big r T R : inv r T R -> T - R <= umax t.
  Proof. intros []. unfold umax. lia. Qed.

  Lemma read_until_eq r T R d : inv r T R ->
    let b := through d (q_data (absq r T R)) in
    exists r', ring_read_until t r d = Ret (r', b) /\
      inv r' T (R + Z.min (zlen b) (T - R)) /\
      absq r' T (R + Z.min (zlen b) (T - R)) = q_remove (absq r T R) (zlen b) /\
      r_len r' = r_len r.
  Proof.
    intros I b. unfold ring_read_until. cbn [ring_read_until_loop].
    pose proof (absq_data_len r T R I) as HL. pose proof (umax_big r T R I) as HU.
    assert (Hu : 0 <= umax t) by (destruct I; lia).
    rewrite (read_slice_eq r T R I) by exact Hu. cbn [obind].
    rewrite ztake_all by lia.
    destruct (find_byte d (q_data (absq r T R))) as [k|] eqn:Hf.
    - destruct (find_byte_some _ _ _ Hf) as [Hk Hb]. subst b. rewrite Hb.
      rewrite zlen_ztake by lia.
      replace (Z.min (k + 1) (zlen (q_data (absq r T R)))) with (k + 1) by lia.
      destruct (consume_eq r T R I (k + 1)) as (r' & E & I' & A & L); [lia|].
      rewrite E. cbn [obind app]. exists r'. auto.
    - pose proof (find_byte_none _ _ Hf) as Hb. subst b. rewrite Hb, HL.
      destruct (consume_eq r T R I (T - R)) as (r' & E & I' & A & L); [destruct I; lia|].
      rewrite E. cbn [obind]. rewrite Z.min_id in *.
      destruct (Z.eqb_spec (T - R) 0) as [Hz|Hz].
      + exists r'. split; [|auto].
        f_equal. f_equal. symmetry. apply zlen_0. lia.
      + (* second round: nothing left *)
        rewrite (read_slice_eq r' _ _ I') by exact Hu. cbn [obind].
        assert (Hd : q_data (absq r' T (R + (T - R))) = []).
        { apply zlen_0. rewrite (absq_data_len _ _ _ I'). lia. }
        rewrite Hd. replace (ztake (umax t) (@nil byte)) with (@nil byte)
          by (unfold ztake; rewrite firstn_nil; reflexivity).
        cbn [find_byte]. rewrite zlen_nil.
        destruct (consume_eq r' _ _ I' 0) as (r2 & E2 & I2 & A2 & L2); [lia|].
        rewrite E2. cbn [obind Z.eqb].
        replace (Z.min 0 (T - (R + (T - R)))) with 0 in * by lia. rewrite Z.add_0_r in *.
        exists r2. split; [reflexivity|]. split; [exact I2|]. split; [|lia].
        rewrite A2, A. unfold q_remove. cbn [q_data q_free].
        rewrite (zdrop_neg 0), (ztake_neg 0) by lia. rewrite app_nil_r. reflexivity.
  Qed.

  Lemma put_slice_ok r T R b : inv r T R -> zlen b <= r_len r - (T - R) ->
    pos_ok (r_len r) (T + zlen b) ->
    exists r', ring_put_slice t r b = Ret r' /\ inv r' (T + zlen b) R /\
      absq r' (T + zlen b) R = q_append (absq r T R) b /\ r_len r' = r_len r.
  Proof.
    intros I Hb Hok. unfold ring_put_slice, ring_remaining_mut.
    rewrite (write_len_eq r T R I). cbn [obind].
    destruct (Z.ltb_spec (r_len r - (T - R)) (zlen b)); [lia|].
    destruct b as [|b0 b'].
    - cbn [length ring_put_loop]. rewrite zlen_nil, Z.add_0_r in *.
      exists r. split; [reflexivity|]. split; [exact I|]. split; [|reflexivity].
      unfold q_append. rewrite app_nil_r, zlen_nil. rewrite zdrop_neg by lia.
      destruct (absq r T R); reflexivity.
    - set (b := b0 :: b') in *. pose proof (zlen_nonneg b) as Hb0.
      change (length b) with (S (length b')). unfold b at 1. cbn [ring_put_loop]. fold b.
      assert (Hu : r_len r - (T - R) <= umax t) by (destruct I; unfold umax; lia).
      assert (Hu0 : 0 <= umax t) by (destruct I; lia).
      unfold ring_chunk_mut. rewrite (write_slice_eq r T R I) by exact Hu0. cbn [obind].
      rewrite (ztake_all (umax t)) by (rewrite (absq_free_len r T R I); exact Hu).
      rewrite (absq_free_len r T R I).
      replace (Z.min (r_len r - (T - R)) (zlen b)) with (zlen b) by lia.
      rewrite (ztake_all (zlen b) b) by lia. rewrite (zdrop_all (zlen b) b) by lia.
      destruct (store_feed r T R (umax t) b (zlen b) I Hu0 eq_refl) as (r' & E & I' & A & L);
        [lia|exact Hok|].
      destruct (ring_slice_store t r (umax t) 0 b) as [r1| | | |] eqn:E1; try discriminate E.
      cbn [obind] in *. unfold ring_advance_mut. rewrite E. cbn [obind].
      exists r'. split; [destruct (length b'); reflexivity|]. auto.
  Qed.

  Lemma put_slice_bad r T R b : inv r T R -> r_len r - (T - R) < zlen b ->
    ring_put_slice t r b = Panic.
  Proof.
    intros I Hb. unfold ring_put_slice, ring_remaining_mut.
    rewrite (write_len_eq r T R I). cbn [obind].
    destruct (Z.ltb_spec (r_len r - (T - R)) (zlen b)); [reflexivity|lia].
  Qed.

  Lemma clear_inv r T R : inv r T R -> inv (ring_clear r) 0 0.
  Proof.
    intros []. pose proof word_pos. constructor; cbn [ring_clear r_len r_rpos r_wpos];
      try assumption; try lia; try reflexivity.
    split; left; lia.
  Qed.

  Lemma absq_all r T R : inv r T R ->
    q_data (absq r T R) ++ q_free (absq r T R) = view (mirror (r_mem r) (r_len r)) R (r_len r).
  Proof.
    intros []. cbn [absq q_data q_free].
    transitivity (view (mirror (r_mem r) (r_len r)) R ((T - R) + (r_len r - (T - R))));
      [|f_equal; lia].
    rewrite view_app by lia. f_equal. f_equal. lia.
  Qed.

  Lemma rotation m len R : 0 < len -> exists k,
    view (mirror m len) 0 len =
    zdrop k (view (mirror m len) R len) ++ ztake k (view (mirror m len) R len).
  Proof.
    intros Hl. pose proof (Z.mod_pos_bound R len Hl) as Hm.
    set (j := R mod len) in *.
    exists (len - j). rewrite zdrop_view, ztake_view by lia.
    replace (Z.min (len - j) len) with (len - j) by lia.
    replace (len - (len - j)) with j by lia.
    transitivity (view (mirror m len) 0 (j + (len - j))); [f_equal; lia|].
    rewrite view_app by lia. f_equal.
    - apply view_mirror_mod; [lia|]. rewrite Z.mod_0_l by lia.
      rewrite (Z.div_mod R len) by lia. fold j.
      replace (len * (R / len) + j + (len - j)) with ((R / len + 1) * len) by lia.
      symmetry. apply Z.mod_mul. lia.
    - apply view_mirror_mod; [lia|]. unfold j. rewrite Z.add_0_l. apply Z.mod_mod. lia.
  Qed.

  (** ** One call *)

  Lemma step_sim r T R o acc : inv r T R -> T <= acc -> rop_ok o ->
    pos_ok (r_len r) (acc + rop_weight (r_len r) o) ->
    (q_panics (absq r T R) o /\ ring_step t r o = Panic) \/
    (~ q_panics (absq r T R) o /\ exists r' x T' R',
       ring_step t r o = Ret (r', x) /\ inv r' T' R' /\ T' <= next_total acc (r_len r) o /\
       q_step (absq r T R) o (absq r' T' R') x /\ r_len r' = r_len r).
  Proof.
    intros I HT Ho Hok.
    pose proof (absq_data_len r T R I) as HD. pose proof (absq_free_len r T R I) as HF.
    pose proof (inv_len _ _ _ I) as Hlen. pose proof (inv_R _ _ _ I) as HR0.
    pose proof (inv_RT _ _ _ I) as HRT. pose proof (inv_T _ _ _ I) as HTR.
    destruct o as [b|b|n|n|n|max i d|max|d|b|]; cbn [rop_weight rop_ok next_total] in *.
    - (* write *) right. split; [intros []|]. pose proof (zlen_nonneg b).
      destruct (write_eq r T R b I) as (r' & E & I' & A & L).
      { eapply pos_ok_le; [exact Hok|]. lia. }
      cbn [ring_step]. rewrite E. cbn [obind fst snd].
      eexists _, _, _, _. split; [reflexivity|]. split; [exact I'|]. split; [lia|].
      split; [|exact L]. cbn [q_step]. rewrite HF, A. split; reflexivity.
    - (* write_all *) right. split; [intros []|]. pose proof (zlen_nonneg b).
      destruct (write_all_eq r T R b I) as (r' & E & I' & A & L).
      { eapply pos_ok_le; [exact Hok|]. lia. }
      cbn [ring_step]. rewrite E. cbn [obind fst snd].
      eexists _, _, _, _. split; [reflexivity|]. split; [exact I'|]. split; [lia|].
      split; [|exact L]. cbn [q_step]. rewrite HF, A. split.
      + f_equal. rewrite Z.min_comm. apply ztake_min.
      + destruct (zlen b <=? r_len r - (T - R)); reflexivity.
    - (* read *) right. split; [intros []|]. unfold is_usize in Ho.
      destruct (read_eq r T R n I) as (r' & E & I' & A & L); [lia|].
      cbn [ring_step]. rewrite E. cbn [obind fst snd].
      eexists _, _, _, _. split; [reflexivity|]. split; [exact I'|]. split; [lia|].
      split; [|exact L]. cbn [q_step]. split; [exact A|reflexivity].
    - (* consume *) right. split; [intros []|]. unfold is_usize in Ho.
      destruct (consume_eq r T R I n) as (r' & E & I' & A & L); [lia|].
      cbn [ring_step]. rewrite E. cbn [obind].
      eexists _, _, _, _. split; [reflexivity|]. split; [exact I'|]. split; [lia|].
      split; [|exact L]. cbn [q_step]. split; [exact A|reflexivity].
    - (* feed *) right. split; [intros []|]. unfold is_usize in Ho.
      destruct (feed_eq r T R I n) as (r' & E & I' & A & L); [lia| |].
      { eapply pos_ok_le; [exact Hok|]. lia. }
      cbn [ring_step]. rewrite E. cbn [obind].
      eexists _, _, _, _. split; [reflexivity|]. split; [exact I'|]. split; [lia|].
      split; [|exact L]. cbn [q_step]. split; [exact A|reflexivity].
    - (* slice store *) unfold is_usize in Ho. cbn [q_panics ring_step]. rewrite HF.
      destruct (Z.leb_spec (i + zlen d) (Z.min (r_len r - (T - R)) max)) as [Hs|Hs].
      + right. split; [intros Hn; apply Hn; lia|].
        destruct (slice_store_ok r T R I max i d) as (r' & E & I' & A & L & _ & _); [lia..|].
        rewrite E. cbn [obind]. eexists _, _, _, _. split; [reflexivity|].
        split; [exact I'|]. split; [lia|]. split; [|exact L].
        cbn [q_step]. split; [exact A|reflexivity].
      + left. split; [lia|]. rewrite (slice_store_bad r T R I) by lia. reflexivity.
    - (* peek *) right. split; [intros []|]. unfold is_usize in Ho.
      cbn [ring_step]. rewrite (read_slice_eq r T R I) by lia. cbn [obind].
      eexists _, _, _, _. split; [reflexivity|]. split; [exact I|]. split; [lia|].
      split; [|reflexivity]. cbn [q_step]. split; reflexivity.
    - (* read_until *) right. split; [intros []|].
      destruct (read_until_eq r T R d I) as (r' & E & I' & A & L).
      cbn [ring_step]. rewrite E. cbn [obind fst snd].
      eexists _, _, _, _. split; [reflexivity|]. split; [exact I'|]. split; [lia|].
      split; [|exact L]. cbn [q_step]. split; [exact A|reflexivity].
    - (* put_slice *) cbn [q_panics ring_step]. rewrite HF. pose proof (zlen_nonneg b).
      destruct (Z.ltb_spec (r_len r - (T - R)) (zlen b)) as [Hs|Hs].
      + left. split; [exact Hs|]. rewrite (put_slice_bad r T R) by assumption. reflexivity.
      + right. split; [lia|].
        destruct (put_slice_ok r T R b I) as (r' & E & I' & A & L); [lia| |].
        { eapply pos_ok_le; [exact Hok|]. lia. }
        rewrite E. cbn [obind]. eexists _, _, _, _. split; [reflexivity|].
        split; [exact I'|]. split; [lia|]. split; [|exact L].
        cbn [q_step]. split; [exact A|reflexivity].
    - (* clear *) right. split; [intros []|]. cbn [ring_step].
      eexists _, _, 0, 0. split; [reflexivity|]. split; [exact (clear_inv r T R I)|].
      split; [lia|]. split; [|reflexivity]. cbn [q_step]. split.
      { apply zlen_0. rewrite (absq_data_len _ 0 0 (clear_inv r T R I)). lia. }
      split; [|reflexivity]. cbn zeta. rewrite (absq_all r T R I).
      destruct (rotation (r_mem r) (r_len r) R Hlen) as [k Hk]. exists k.
      cbn [absq q_free ring_clear r_len r_mem]. rewrite <- Hk. f_equal. lia.
  Qed.

  (** ** Histories *)

  Lemma run_sim os : forall r T R acc, inv r T R -> T <= acc -> history_ok acc (r_len r) os ->
    exists res, q_run (absq r T R) os res /\
      match res with
      | Some (q, xs) => exists r' T' R', ring_run t r os = Ret (r', xs) /\
                          inv r' T' R' /\ absq r' T' R' = q /\ r_len r' = r_len r /\
                          T' <= total_after acc (r_len r) os
      | None => ring_run t r os = Panic
      end.
  Proof.
    induction os as [|o os IH]; intros r T R acc I HT H.
    - exists (Some (absq r T R, [])). split; [constructor|].
      exists r, T, R. auto.
    - cbn [history_ok] in H. destruct H as (Ho & Hok & Hrest).
      destruct (step_sim r T R o acc I HT Ho Hok) as [[Hp E]|(Hn & r' & x & T' & R' & E & I' & HT' & S & L)].
      + exists None. split; [apply q_run_panic; exact Hp|]. cbn [ring_run]. rewrite E. reflexivity.
      + rewrite <- L in Hrest, HT'.
        destruct (IH r' T' R' _ I' HT' Hrest) as (res & Q & M).
        destruct res as [[q xs]|].
        * exists (Some (q, x :: xs)). split; [eapply q_run_ok; eassumption|].
          destruct M as (r2 & T2 & R2 & E2 & I2 & A2 & L2 & B2).
          exists r2, T2, R2. cbn [ring_run]. rewrite E. cbn [obind fst snd].
          rewrite E2. cbn [obind fst snd]. split; [reflexivity|]. split; [exact I2|]. split; [exact A2|].
          split; [lia|]. cbn [total_after]. rewrite <- L. exact B2.
        * exists None. split; [eapply q_run_later; eassumption|].
          cbn [ring_run]. rewrite E. cbn [obind fst]. rewrite M. reflexivity.
  Qed.

  Lemma make_inv len m : 0 < len -> 2 * len <= 2 ^ t_bits t -> inv (ring_make len m) 0 0.
  Proof.
    intros Hl Hw. pose proof word_pos. constructor; cbn [ring_make r_len r_rpos r_wpos];
      try assumption; try lia; try reflexivity. split; left; lia.
  Qed.
End R.
