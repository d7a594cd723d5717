(** [InfiniteRing] refines the lossy queue of RingSpec.v. *)
From Coq Require Import Lia Znumtheory.
From Verif Require Import Base ErrorModel RingSpec RingModel SeqProofs SizeProofs RingProofs.

Lemma lastn_len n l : 0 <= n -> zlen (lastn n l) = Z.min n (zlen l).
Proof.
  intros Hn. unfold lastn. pose proof (zlen_nonneg l).
  destruct (Z.le_gt_cases (zlen l) n).
  - rewrite zdrop_neg by lia. lia.
  - rewrite zlen_zdrop by lia. lia.
Qed.

Lemma lastn_all n l : zlen l <= n -> lastn n l = l.
Proof. intros. unfold lastn. apply zdrop_neg. lia. Qed.

Lemma lastn_lastn a c l : 0 <= a -> 0 <= c -> lastn a (lastn c l) = lastn (Z.min a c) l.
Proof.
  intros Ha Hc. pose proof (zlen_nonneg l). destruct (Z.le_gt_cases (zlen l) c) as [H1|H1].
  - rewrite (lastn_all c) by lia. destruct (Z.le_gt_cases a c).
    + rewrite Z.min_l by lia. reflexivity.
    + rewrite Z.min_r by lia. rewrite !lastn_all by lia. reflexivity.
  - pose proof (lastn_len c l Hc) as HL. rewrite Z.min_l in HL by lia.
    unfold lastn at 1. rewrite HL. unfold lastn. destruct (Z.le_gt_cases a c).
    + rewrite zdrop_zdrop by lia. rewrite Z.min_l by lia. f_equal. lia.
    + rewrite (zdrop_neg (c - a)) by lia. rewrite Z.min_r by lia. reflexivity.
Qed.

Lemma lastn_app_r n l b : zlen b <= n -> lastn n (l ++ b) = lastn (n - zlen b) l ++ b.
Proof.
  intros Hb. unfold lastn. rewrite zlen_app. pose proof (zlen_nonneg l).
  pose proof (zlen_nonneg b).
  replace (zlen l + zlen b - n) with (zlen l - (n - zlen b)) by lia.
  destruct (Z.le_gt_cases (zlen l - (n - zlen b)) 0).
  - rewrite !zdrop_neg by lia. reflexivity.
  - apply zdrop_app_l. lia.
Qed.

Lemma lastn_app_l n l b : n <= zlen b -> lastn n (l ++ b) = lastn n b.
Proof.
  intros Hb. unfold lastn. rewrite zlen_app. pose proof (zlen_nonneg l).
  rewrite zdrop_app_r by lia. f_equal. lia.
Qed.

Section I.
  Variable t : target.
  Hypothesis Hbits : 32 <= t_bits t <= 64.

  Local Notation irop_ok := (irop_ok t).
  Local Notation ihistory_ok := (ihistory_ok t).

  Record iinv (r : iring) (T : Z) : Prop := {
    ii_len : 0 < i_len r;
    ii_word : 2 * i_len r < 2 ^ t_bits t;
    ii_rlen : 0 <= i_rlen r <= i_len r;
    ii_T : i_rlen r <= T;
    ii_wpos : i_wpos r = T mod 2 ^ 64;
    ii_ok : pos_ok t (i_len r) T
  }.

  (** The tape: what the write slice shows, oldest byte first. *)
  Definition abst (r : iring) (T : Z) : lqueue :=
    {| lq_tape := view (mirror (i_mem r) (i_len r)) T (i_len r); lq_len := i_rlen r |}.

  Lemma abst_tape_len r T : iinv r T -> zlen (lq_tape (abst r T)) = i_len r.
  Proof. intros []. cbn [abst lq_tape]. rewrite view_len. lia. Qed.

  Lemma abst_data r T : iinv r T ->
    lq_data (abst r T) = view (mirror (i_mem r) (i_len r)) (T - i_rlen r) (i_rlen r).
  Proof.
    intros I. unfold lq_data, lastn. rewrite (abst_tape_len r T I).
    cbn [abst lq_tape lq_len]. destruct I. rewrite zdrop_view by lia.
    replace (i_len r - (i_len r - i_rlen r)) with (i_rlen r) by lia.
    rewrite <- (view_mirror_turn _ _ (T - i_rlen r)) by lia. f_equal. lia.
  Qed.

  Section Obs.
    Variables (r : iring) (T : Z).
    Hypothesis I : iinv r T.

    Lemma i_read_len_eq : iring_read_len t r = i_rlen r.
    Proof.
      destruct I. unfold iring_read_len, as_usize. apply Z.mod_small. lia.
    Qed.

    Lemma i_urem x : urem x (i_len r) = Ret (x mod i_len r).
    Proof. destruct I. unfold urem. destruct (Z.eqb_spec (i_len r) 0); [lia|reflexivity]. Qed.

    Lemma i_write_offset_eq : iring_write_offset t r = Ret (T mod i_len r).
    Proof.
      unfold iring_write_offset. rewrite i_urem. f_equal. destruct I.
      rewrite ii_wpos0. unfold as_usize. apply (offset_exact t Hbits); [lia|lia|assumption].
    Qed.

    Lemma i_read_offset_eq : iring_read_offset t r = Ret ((T - i_rlen r) mod i_len r).
    Proof.
      unfold iring_read_offset, sub64. pose proof (word_le t Hbits) as Hw.
      destruct I. rewrite ii_wpos0. rewrite wrap_mod; [|lia|].
      2:{ destruct ii_ok0 as [[Ho|Ho] _]; [left|right; exact Ho].
          rewrite Z.mod_small by lia. lia. }
      cbn [obind]. rewrite Zminus_mod_idemp_l.
      unfold urem. destruct (Z.eqb_spec (i_len r) 0); [lia|]. f_equal.
      unfold as_usize. apply (offset_exact t Hbits); [lia|lia|].
      eapply (pos_ok_le t Hbits); [exact ii_ok0|lia].
    Qed.

    Lemma i_vslice_eq X n : 0 <= n <= i_len r ->
      vslice (i_len r) (i_mem r) (X mod i_len r) n =
      Ret (view (mirror (i_mem r) (i_len r)) X n).
    Proof.
      intros Hn. destruct I. unfold vslice.
      pose proof (Z.mod_pos_bound X (i_len r) ii_len0).
      destruct (Z.leb_spec 0 (X mod i_len r)); [|lia].
      destruct (Z.leb_spec 0 n); [|lia].
      destruct (Z.leb_spec (X mod i_len r + n) (2 * i_len r)); [|lia].
      cbn [andb]. f_equal. apply view_mirror_mod; [lia|]. apply Z.mod_mod. lia.
    Qed.

    Lemma i_read_slice_eq max : 0 <= max ->
      iring_read_slice t r max = Ret (ztake max (lq_data (abst r T))).
    Proof.
      intros Hm. unfold iring_read_slice. rewrite i_read_offset_eq, i_read_len_eq. cbn [obind].
      rewrite (abst_data r T I). destruct I. rewrite i_vslice_eq by lia.
      rewrite ztake_view by lia. f_equal. f_equal. lia.
    Qed.

    Lemma i_write_slice_eq max : 0 <= max ->
      iring_write_slice t r max = Ret (ztake max (lq_tape (abst r T))).
    Proof.
      intros Hm. unfold iring_write_slice. rewrite i_write_offset_eq. cbn [obind].
      unfold iring_write_len, iring_write_capacity. destruct I.
      rewrite i_vslice_eq by lia. cbn [abst lq_tape].
      rewrite ztake_view by lia. f_equal. f_equal. lia.
    Qed.

    Lemma i_consume_eq n : 0 <= n ->
      exists r', iring_consume t r n = Ret r' /\ iinv r' T /\
        abst r' T = lq_drop (abst r T) n /\ i_len r' = i_len r.
    Proof.
      intros Hn. unfold iring_consume. rewrite i_read_len_eq. pose proof (word_le t Hbits).
      destruct I. unfold as_u64. rewrite Z.mod_small by lia. unfold sub64.
      rewrite wrap_in by lia. cbn [obind]. eexists. split; [reflexivity|].
      split; [constructor; cbn [i_len i_rlen i_wpos]; (assumption || lia)|].
      split; [|reflexivity]. unfold abst, lq_drop; cbn [i_len i_mem i_rlen lq_tape lq_len].
      f_equal. lia.
    Qed.

    (** Feeding rotates the tape: the fed bytes are those at its front. *)
    Lemma i_feed_eq n : 0 <= n -> i_rlen r + n < 2 ^ 64 ->
      pos_ok t (i_len r) (T + Z.min n (i_len r)) ->
      exists r', iring_feed t r n = Ret r' /\ iinv r' (T + Z.min n (i_len r)) /\
        abst r' (T + Z.min n (i_len r)) =
          {| lq_tape := zdrop n (lq_tape (abst r T)) ++ ztake n (lq_tape (abst r T));
             lq_len := Z.min (i_rlen r + n) (i_len r) |} /\ i_len r' = i_len r.
    Proof.
      intros Hn Hs Hok. unfold iring_feed, iring_write_len, iring_write_capacity.
      set (k := Z.min n (i_len r)) in *. pose proof (word_le t Hbits). destruct I.
      unfold as_u64. rewrite (Z.mod_small k) by lia. rewrite (Z.mod_small n) by lia.
      rewrite (Z.mod_small (i_len r)) by lia.
      unfold add64. rewrite ii_wpos0. rewrite wrap_add_pos; [|lia|lia|apply Hok].
      cbn [obind]. rewrite wrap_in by lia. cbn [obind].
      eexists. split; [reflexivity|].
      split; [constructor; cbn [i_len i_rlen i_wpos]; (assumption || reflexivity || lia)|].
      split; [|reflexivity]. unfold abst; cbn [i_len i_mem i_rlen lq_tape lq_len].
      f_equal. rewrite zdrop_view, ztake_view by lia. fold k.
      transitivity (view (mirror (i_mem r) (i_len r)) (T + k) ((i_len r - k) + k)); [f_equal; lia|].
      rewrite view_app by lia. f_equal.
      - destruct (Z.le_gt_cases n (i_len r)).
        + replace k with n by lia. reflexivity.
        + rewrite !view_0 by lia. reflexivity.
      - replace (T + k + (i_len r - k)) with (T + i_len r) by lia.
        apply view_mirror_turn. lia.
    Qed.

    (** The sum inside [feed] overflows for huge arguments. *)
    Lemma i_feed_over n : is_usize t n -> 2 ^ 64 <= i_rlen r + n ->
      pos_ok t (i_len r) (T + Z.min n (i_len r)) ->
      iring_feed t r n =
        if t_checks t then Panic
        else Ret {| i_len := i_len r; i_rlen := Z.min (i_rlen r + n - 2 ^ 64) (i_len r);
                    i_wpos := (T + Z.min n (i_len r)) mod 2 ^ 64; i_mem := i_mem r |}.
    Proof.
      intros Hn Hs Hok. unfold iring_feed, iring_write_len, iring_write_capacity.
      set (k := Z.min n (i_len r)) in *. pose proof (word_le t Hbits). unfold is_usize in Hn.
      destruct I.
      unfold as_u64. rewrite (Z.mod_small k) by lia. rewrite (Z.mod_small n) by lia.
      rewrite (Z.mod_small (i_len r)) by lia.
      unfold add64. rewrite ii_wpos0. rewrite wrap_add_pos; [|lia|lia|apply Hok].
      cbn [obind]. rewrite wrap_out by lia. destruct (t_checks t); [reflexivity|].
      cbn [obind]. replace ((i_rlen r + n) mod 2 ^ 64) with (i_rlen r + n - 2 ^ 64); [reflexivity|].
      apply (Z.mod_unique _ _ 1); lia.
    Qed.

    Lemma i_store_ok max i d : 0 <= max -> 0 <= i -> i + zlen d <= Z.min (i_len r) max ->
      exists r', iring_slice_store t r max i d = Ret r' /\ iinv r' T /\
        abst r' T = {| lq_tape := ztake i (lq_tape (abst r T)) ++ d ++
                                  zdrop (i + zlen d) (lq_tape (abst r T));
                       lq_len := lq_len (abst r T) |} /\
        i_len r' = i_len r /\ i_rlen r' = i_rlen r.
    Proof.
      intros Hm Hi Hd. unfold iring_slice_store.
      rewrite i_write_offset_eq, i_write_slice_eq by exact Hm. cbn [obind].
      rewrite zlen_ztake by exact Hm. rewrite (abst_tape_len r T I).
      destruct (Z.leb_spec 0 i); [|lia].
      destruct (Z.leb_spec (i + zlen d) (Z.min max (i_len r))); [|lia].
      cbn [andb]. eexists. split; [reflexivity|]. pose proof (zlen_nonneg d). destruct I.
      split; [constructor; cbn [i_len i_rlen i_wpos]; assumption|].
      split; [|split; reflexivity]. unfold abst; cbn [i_len i_mem i_rlen lq_tape lq_len].
      f_equal.
      rewrite (vstore_mod (i_len r) (i_mem r) (T mod i_len r + i) (T + i) d);
        [|lia|rewrite Zplus_mod_idemp_l; reflexivity].
      set (m' := vstore (i_len r) (i_mem r) (T + i) d).
      rewrite ztake_view, zdrop_view by lia.
      replace (Z.min i (i_len r)) with i by lia.
      transitivity (view (mirror m' (i_len r)) T (i + (zlen d + (i_len r - (i + zlen d)))));
        [f_equal; lia|].
      rewrite view_app, view_app by lia. f_equal; [|f_equal].
      - rewrite <- (view_mirror_turn m' (i_len r) T) by lia.
        rewrite <- (view_mirror_turn (i_mem r) (i_len r) T) by lia.
        replace (T + i_len r) with ((T + i) + (i_len r - i)) by lia.
        unfold m'. apply vstore_view_out; lia.
      - unfold m'. apply vstore_view_in; lia.
      - replace (T + (i + zlen d)) with ((T + i) + zlen d) by lia.
        unfold m'. apply vstore_view_out; lia.
    Qed.

    Lemma i_store_bad max i d : 0 <= max ->
      ~ (0 <= i /\ i + zlen d <= Z.min (i_len r) max) ->
      iring_slice_store t r max i d = Panic.
    Proof.
      intros Hm Hn. unfold iring_slice_store.
      rewrite i_write_offset_eq, i_write_slice_eq by exact Hm. cbn [obind].
      rewrite zlen_ztake by exact Hm. rewrite (abst_tape_len r T I).
      destruct (Z.leb_spec 0 i); [|reflexivity].
      destruct (Z.leb_spec (i + zlen d) (Z.min max (i_len r))); [lia|reflexivity].
    Qed.
  End Obs.

  Lemma push_as_rotation (q : lqueue) (b : bytes) : zlen b <= zlen (lq_tape q) ->
    lastn (zlen (lq_tape q)) (lq_tape q ++ b) = zdrop (zlen b) (lq_tape q) ++ b.
  Proof.
    intros Hb. rewrite lastn_app_r by exact Hb. f_equal. unfold lastn. f_equal. lia.
  Qed.

  Lemma i_store_feed r T max d n : iinv r T -> 0 <= max -> n = zlen d ->
    n <= Z.min (i_len r) max -> pos_ok t (i_len r) (T + n) ->
    exists r', (let* r1 := iring_slice_store t r max 0 d in iring_feed t r1 n) = Ret r' /\
      iinv r' (T + n) /\ abst r' (T + n) = lq_push (abst r T) d /\ i_len r' = i_len r.
  Proof.
    intros I Hm -> Hd Hok. pose proof (zlen_nonneg d) as Hd0.
    pose proof (abst_tape_len r T I) as HTL. pose proof (word_le t Hbits) as HW.
    destruct (i_store_ok r T I max 0 d Hm) as (r1 & E1 & I1 & A1 & L1 & RL1); [lia|lia|].
    rewrite E1. cbn [obind].
    destruct (i_feed_eq r1 T I1 (zlen d) Hd0) as (r2 & E2 & I2 & A2 & L2).
    { rewrite RL1. destruct I. lia. }
    { rewrite L1. replace (Z.min (zlen d) (i_len r)) with (zlen d) by lia. exact Hok. }
    rewrite L1 in *. replace (Z.min (zlen d) (i_len r)) with (zlen d) in * by lia.
    exists r2. split; [exact E2|]. split; [exact I2|]. split; [|lia].
    rewrite A2, A1. unfold lq_push; cbn [lq_tape lq_len].
    rewrite (ztake_neg 0) by lia. cbn [app]. rewrite Z.add_0_l.
    rewrite ztake_app_l by lia. rewrite ztake_all by lia.
    rewrite zdrop_app_r by lia. rewrite Z.sub_diag, (zdrop_neg 0) by lia.
    rewrite push_as_rotation by lia. rewrite RL1, HTL. reflexivity.
  Qed.

  Lemma i_write_eq r T b : iinv r T -> let n := Z.min (zlen b) (i_len r) in
    pos_ok t (i_len r) (T + n) ->
    exists r', iring_write t r b = Ret (r', n) /\ iinv r' (T + n) /\
      abst r' (T + n) = lq_push (abst r T) (ztake (i_len r) b) /\ i_len r' = i_len r.
  Proof.
    intros I n Hok. pose proof (zlen_nonneg b) as Hb. unfold iring_write.
    rewrite (i_write_slice_eq r T I) by exact Hb. cbn [obind].
    rewrite zlen_ztake by exact Hb. rewrite (abst_tape_len r T I). fold n.
    assert (Hn : 0 <= n) by (destruct I; lia).
    destruct (i_store_feed r T (zlen b) (ztake n b) n I Hb) as (r' & E & I' & A & L).
    { rewrite zlen_ztake by exact Hn. lia. }
    { lia. }
    { exact Hok. }
    destruct (iring_slice_store t r (zlen b) 0 (ztake n b)) as [r1| | | |] eqn:E1;
      try discriminate E. cbn [obind] in *. rewrite E. cbn [obind].
    exists r'. split; [reflexivity|]. split; [exact I'|]. split; [|exact L].
    rewrite A. f_equal. unfold n. rewrite Z.min_comm. apply ztake_min.
  Qed.

  Lemma i_write_all_eq r T b : iinv r T -> zlen b < 2 ^ t_bits t ->
    let n := Z.min (zlen b) (i_len r) in
    pos_ok t (i_len r) (T + n) ->
    exists r', iring_write_all t r b = Ret r' /\ iinv r' (T + n) /\
      abst r' (T + n) = lq_push (abst r T) b /\ i_len r' = i_len r.
  Proof.
    intros I Hbw n Hok. pose proof (zlen_nonneg b) as Hb. unfold iring_write_all.
    rewrite (i_write_slice_eq r T I) by exact Hb. cbn [obind].
    rewrite zlen_ztake by exact Hb. pose proof (abst_tape_len r T I) as HTL. rewrite HTL. fold n.
    assert (Hn : 0 <= n) by (destruct I; lia).
    unfold usub. rewrite wrap_in by lia. cbn [obind].
    assert (Hd : zlen (zdrop (zlen b - n) b) = n) by (rewrite zlen_zdrop; lia).
    destruct (i_store_feed r T (zlen b) (zdrop (zlen b - n) b) n I Hb) as (r' & E & I' & A & L).
    { lia. }
    { lia. }
    { exact Hok. }
    exists r'. split; [exact E|]. split; [exact I'|]. split; [|exact L].
    rewrite A. unfold lq_push. rewrite Hd, HTL.
    destruct (Z.le_gt_cases (zlen b) (i_len r)) as [Hs|Hs].
    - replace n with (zlen b) by lia. rewrite Z.sub_diag, (zdrop_neg 0) by lia. reflexivity.
    - replace n with (i_len r) in * by lia. f_equal.
      + rewrite (lastn_app_l _ _ b) by lia. rewrite lastn_app_l by lia.
        unfold lastn. rewrite Hd. rewrite Z.sub_diag, (zdrop_neg 0) by lia. reflexivity.
      + cbn [abst lq_len]. destruct I. lia.
  Qed.

  Lemma i_read_eq r T n : iinv r T -> 0 <= n ->
    exists r', iring_read t r n = Ret (r', ztake n (lq_data (abst r T))) /\
      iinv r' T /\ abst r' T = lq_drop (abst r T) n /\ i_len r' = i_len r.
  Proof.
    intros I Hn. unfold iring_read. rewrite (i_read_slice_eq r T I) by exact Hn. cbn [obind].
    rewrite zlen_ztake by exact Hn.
    assert (HD : zlen (lq_data (abst r T)) = i_rlen r).
    { rewrite (abst_data r T I), view_len. destruct I. lia. }
    rewrite HD.
    destruct (i_consume_eq r T I (Z.min n (i_rlen r))) as (r' & E & I' & A & L); [destruct I; lia|].
    rewrite E. cbn [obind]. exists r'. split; [reflexivity|]. split; [exact I'|]. split; [|exact L].
    rewrite A. unfold lq_drop. f_equal. cbn [abst lq_len]. destruct I. lia.
  Qed.

  Lemma istep_sim r T o acc : iinv r T -> T <= acc -> irop_ok (i_len r) o ->
    pos_ok t (i_len r) (acc + irop_weight (i_len r) o) ->
    (lq_panics (abst r T) o /\ iring_step t r o = Panic) \/
    (~ lq_panics (abst r T) o /\ exists r' x T',
       iring_step t r o = Ret (r', x) /\ iinv r' T' /\ T' <= acc + irop_weight (i_len r) o /\
       lq_step (abst r T) o (abst r' T') x /\ i_len r' = i_len r).
  Proof.
    intros I HT Ho Hok. pose proof (abst_tape_len r T I) as HL.
    pose proof (ii_len _ _ I) as Hlen.
    destruct o as [b|b|n|n|n|max i d|max]; cbn [irop_weight irop_ok] in *.
    - right. split; [intros []|]. pose proof (zlen_nonneg b).
      destruct (i_write_eq r T b I) as (r' & E & I' & A & L).
      { eapply (pos_ok_le t Hbits); [exact Hok|]. lia. }
      cbn [iring_step]. rewrite E. cbn [obind fst snd].
      eexists _, _, _. split; [reflexivity|]. split; [exact I'|]. split; [lia|].
      split; [|exact L]. unfold lq_step. cbn zeta. rewrite HL. split; [exact A|reflexivity].
    - right. split; [intros []|]. pose proof (zlen_nonneg b).
      destruct (i_write_all_eq r T b I Ho) as (r' & E & I' & A & L).
      { eapply (pos_ok_le t Hbits); [exact Hok|]. lia. }
      cbn [iring_step]. rewrite E. cbn [obind].
      eexists _, _, _. split; [reflexivity|]. split; [exact I'|]. split; [lia|].
      split; [|exact L]. unfold lq_step. cbn zeta. split; [exact A|reflexivity].
    - right. split; [intros []|]. unfold is_usize in Ho.
      destruct (i_read_eq r T n I) as (r' & E & I' & A & L); [lia|].
      cbn [iring_step]. rewrite E. cbn [obind fst snd].
      eexists _, _, _. split; [reflexivity|]. split; [exact I'|]. split; [lia|].
      split; [|exact L]. unfold lq_step. cbn zeta. split; [exact A|reflexivity].
    - right. split; [intros []|]. unfold is_usize in Ho.
      destruct (i_consume_eq r T I n) as (r' & E & I' & A & L); [lia|].
      cbn [iring_step]. rewrite E. cbn [obind].
      eexists _, _, _. split; [reflexivity|]. split; [exact I'|]. split; [lia|].
      split; [|exact L]. unfold lq_step. cbn zeta. split; [exact A|reflexivity].
    - right. split; [intros []|]. unfold is_usize in Ho. destruct Ho as [Ho1 Ho2].
      destruct (i_feed_eq r T I n) as (r' & E & I' & A & L); [lia|destruct I; lia| |].
      { eapply (pos_ok_le t Hbits); [exact Hok|]. lia. }
      cbn [iring_step]. rewrite E. cbn [obind].
      eexists _, _, _. split; [reflexivity|]. split; [exact I'|]. split; [lia|].
      split; [|exact L]. unfold lq_step. cbn zeta. split; [|reflexivity].
      rewrite A. unfold lq_push. rewrite zlen_ztake by lia. rewrite HL.
      rewrite <- HL. rewrite push_as_rotation by (rewrite zlen_ztake by lia; lia).
      rewrite zlen_ztake by lia. rewrite zdrop_min. f_equal.
      rewrite HL. cbn [abst lq_len]. destruct I. lia.
    - unfold is_usize in Ho. cbn [lq_panics iring_step]. rewrite HL.
      destruct (Z.leb_spec (i + zlen d) (Z.min (i_len r) max)) as [Hs|Hs].
      + right. split; [intros Hn; apply Hn; lia|].
        destruct (i_store_ok r T I max i d) as (r' & E & I' & A & L & _); [lia..|].
        rewrite E. cbn [obind]. eexists _, _, _. split; [reflexivity|].
        split; [exact I'|]. split; [lia|]. split; [|exact L].
        unfold lq_step. cbn zeta. split; [exact A|reflexivity].
      + left. split; [lia|]. rewrite (i_store_bad r T I) by lia. reflexivity.
    - right. split; [intros []|]. unfold is_usize in Ho.
      cbn [iring_step]. rewrite (i_read_slice_eq r T I) by lia. cbn [obind].
      eexists _, _, _. split; [reflexivity|]. split; [exact I|]. split; [lia|].
      split; [|reflexivity]. unfold lq_step. cbn zeta. split; reflexivity.
  Qed.

  Lemma irun_sim os : forall r T acc, iinv r T -> T <= acc -> ihistory_ok acc (i_len r) os ->
    exists res, lq_run (abst r T) os res /\
      match res with
      | Some (q, xs) => exists r' T', iring_run t r os = Ret (r', xs) /\
                          iinv r' T' /\ abst r' T' = q /\ i_len r' = i_len r /\
                          T' <= itotal_after acc (i_len r) os
      | None => iring_run t r os = Panic
      end.
  Proof.
    induction os as [|o os IH]; intros r T acc I HT H.
    - exists (Some (abst r T, [])). split; [constructor|].
      exists r, T. auto.
    - cbn [ihistory_ok] in H. destruct H as (Ho & Hok & Hrest).
      destruct (istep_sim r T o acc I HT Ho Hok) as [[Hp E]|(Hn & r' & x & T' & E & I' & HT' & S & L)].
      + exists None. split; [apply lq_run_panic; exact Hp|]. cbn [iring_run]. rewrite E. reflexivity.
      + rewrite <- L in Hrest, HT'.
        destruct (IH r' T' _ I' HT' Hrest) as (res & Q & M).
        destruct res as [[q xs]|].
        * exists (Some (q, x :: xs)). split; [eapply lq_run_ok; eassumption|].
          destruct M as (r2 & T2 & E2 & I2 & A2 & L2 & B2).
          exists r2, T2. cbn [iring_run]. rewrite E. cbn [obind fst snd].
          rewrite E2. cbn [obind fst snd]. split; [reflexivity|]. split; [exact I2|].
          split; [exact A2|]. split; [lia|]. cbn [itotal_after]. rewrite <- L. exact B2.
        * exists None. split; [eapply lq_run_later; eassumption|].
          cbn [iring_run]. rewrite E. cbn [obind fst]. rewrite M. reflexivity.
  Qed.

  Lemma imake_inv len m : 0 < len -> 2 * len < 2 ^ t_bits t -> iinv (iring_make len m) 0.
  Proof.
    intros Hl Hw. pose proof (word_pos t Hbits). constructor; cbn [iring_make i_len i_rlen i_wpos];
      try assumption; try lia; try reflexivity. split; left; lia.
  Qed.
End I.

(** Pushing onto the tape appends to the readable bytes and keeps the last
    [cap] of them. *)
Lemma lq_data_push q b : 0 <= lq_len q <= zlen (lq_tape q) ->
  lq_data (lq_push q b) = lastn (zlen (lq_tape q)) (lq_data q ++ b).
Proof.
  intros HL. pose proof (zlen_nonneg b). pose proof (zlen_nonneg (lq_tape q)).
  unfold lq_data, lq_push; cbn [lq_tape lq_len].
  rewrite lastn_lastn by lia.
  assert (Hx : lastn (lq_len q) (lq_tape q) ++ b = lastn (lq_len q + zlen b) (lq_tape q ++ b)).
  { rewrite lastn_app_r by lia. f_equal. f_equal. lia. }
  rewrite Hx. rewrite lastn_lastn by lia. f_equal. lia.
Qed.

Lemma lq_data_len q : 0 <= lq_len q <= zlen (lq_tape q) -> zlen (lq_data q) = lq_len q.
Proof. intros H. unfold lq_data. rewrite lastn_len by lia. lia. Qed.

Lemma lq_data_drop q n : 0 <= lq_len q <= zlen (lq_tape q) -> 0 <= n ->
  lq_data (lq_drop q n) = zdrop n (lq_data q).
Proof.
  intros HL Hn. unfold lq_data, lq_drop, lastn; cbn [lq_tape lq_len].
  rewrite zdrop_zdrop by lia. destruct (Z.le_gt_cases n (lq_len q)).
  - f_equal. lia.
  - rewrite !zdrop_all by lia. reflexivity.
Qed.
