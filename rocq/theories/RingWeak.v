(** Facts about [Ring] that hold for every history whatever its length, on
    every target: accounting and in-bounds slices. *)
From Coq Require Import Lia Znumtheory.
From Verif Require Import Base ErrorModel RingSpec RingModel SeqProofs SizeProofs RingProofs.

Section W.
  Variable t : target.
  Hypothesis Hbits : 32 <= t_bits t <= 64.

  Record winv (r : ring) (d : Z) : Prop := {
    w_len : 0 < r_len r;
    w_word : 2 * r_len r <= 2 ^ t_bits t;
    w_d : 0 <= d <= r_len r;
    w_r : 0 <= r_rpos r < 2 ^ 64;
    w_w : r_wpos r = (r_rpos r + d) mod 2 ^ 64;
    w_c : t_checks t = true -> r_rpos r + d < 2 ^ 64
  }.

  Lemma w_read_len r d : winv r d -> ring_read_len t r = Ret d.
  Proof.
    intros []. pose proof (word_le t Hbits). unfold ring_read_len, sub64. rewrite w_w0.
    assert (Hw : wrap (E:=io_error) (t_checks t) 64 ((r_rpos r + d) mod 2 ^ 64 - r_rpos r) = Ret d).
    { rewrite wrap_mod; [|lia|].
      - rewrite Zminus_mod_idemp_l. rewrite Z.mod_small by lia. f_equal. lia.
      - destruct (t_checks t); [left|right; reflexivity].
        specialize (w_c0 eq_refl). rewrite Z.mod_small by lia. lia. }
    rewrite Hw. cbn [obind]. unfold as_usize. rewrite Z.mod_small by lia. reflexivity.
  Qed.

  Lemma w_write_len r d : winv r d -> ring_write_len t r = Ret (r_len r - d).
  Proof.
    intros I. unfold ring_write_len. rewrite (w_read_len r d I). cbn [obind].
    destruct I. unfold usub, ring_write_capacity. apply wrap_in. lia.
  Qed.

  Lemma w_urem r d x : winv r d -> urem x (r_len r) = Ret (x mod r_len r).
  Proof. intros []. unfold urem. destruct (Z.eqb_spec (r_len r) 0); [lia|reflexivity]. Qed.

  Lemma w_slice r d off n : winv r d -> 0 <= off < r_len r -> 0 <= n <= r_len r ->
    vslice (r_len r) (r_mem r) off n = Ret (view (mirror (r_mem r) (r_len r)) off n).
  Proof.
    intros [] Ho Hn. unfold vslice.
    destruct (Z.leb_spec 0 off); [|lia]. destruct (Z.leb_spec 0 n); [|lia].
    destruct (Z.leb_spec (off + n) (2 * r_len r)); [reflexivity|lia].
  Qed.

  Lemma w_read_slice r d max : winv r d -> 0 <= max ->
    exists s, ring_read_slice t r max = Ret s /\ zlen s = Z.min d max.
  Proof.
    intros I Hm. unfold ring_read_slice, ring_read_offset. rewrite (w_urem r d _ I).
    rewrite (w_read_len r d I). cbn [obind].
    pose proof (Z.mod_pos_bound (as_usize t (r_rpos r)) (r_len r) (w_len _ _ I)).
    pose proof (w_d _ _ I). rewrite (w_slice r d) by (assumption || lia).
    eexists. split; [reflexivity|]. rewrite view_len. lia.
  Qed.

  Lemma w_write_slice r d max : winv r d -> 0 <= max ->
    exists s, ring_write_slice t r max = Ret s /\ zlen s = Z.min (r_len r - d) max.
  Proof.
    intros I Hm. unfold ring_write_slice, ring_write_offset. rewrite (w_urem r d _ I).
    rewrite (w_write_len r d I). cbn [obind].
    pose proof (Z.mod_pos_bound (as_usize t (r_wpos r)) (r_len r) (w_len _ _ I)).
    pose proof (w_d _ _ I). rewrite (w_slice r d) by (assumption || lia).
    eexists. split; [reflexivity|]. rewrite view_len. lia.
  Qed.

  Lemma w_consume r d n : winv r d -> 0 <= n ->
    exists r', ring_consume t r n = Ret r' /\ winv r' (d - Z.min n d) /\ r_len r' = r_len r.
  Proof.
    intros I Hn. unfold ring_consume. rewrite (w_read_len r d I). cbn [obind].
    pose proof (word_le t Hbits). destruct I. unfold as_u64. rewrite Z.mod_small by lia.
    set (k := Z.min n d). unfold add64.
    assert (Hw : wrap (E:=io_error) (t_checks t) 64 (r_rpos r + k) = Ret ((r_rpos r + k) mod 2 ^ 64)).
    { apply wrap_mod; [lia|]. destruct (t_checks t); [left|right; reflexivity].
      specialize (w_c0 eq_refl). lia. }
    rewrite Hw. cbn [obind]. eexists. split; [reflexivity|]. split; [|reflexivity].
    constructor; cbn [r_len r_rpos r_wpos]; try assumption; try lia.
    - apply Z.mod_pos_bound. lia.
    - rewrite w_w0. rewrite Zplus_mod_idemp_l. f_equal. lia.
    - intros Hc. specialize (w_c0 Hc). rewrite Z.mod_small by lia. lia.
  Qed.

  (** feed either moves exactly what fits or panics (position counter over
      2^64 with overflow checks). *)
  Lemma w_feed r d n : winv r d -> 0 <= n ->
    (exists r', ring_feed t r n = Ret r' /\ winv r' (d + Z.min n (r_len r - d)) /\ r_len r' = r_len r) \/
    (ring_feed t r n = Panic /\ t_checks t = true /\ 2 ^ 64 <= r_rpos r + d + Z.min n (r_len r - d)).
  Proof.
    intros I Hn. unfold ring_feed. rewrite (w_write_len r d I). cbn [obind].
    pose proof (word_le t Hbits). destruct I. unfold as_u64. rewrite Z.mod_small by lia.
    set (k := Z.min n (r_len r - d)). unfold add64.
    destruct (Z.lt_ge_cases (r_rpos r + d + k) (2 ^ 64)) as [Hs|Hs].
    - left. rewrite w_w0. rewrite (Z.mod_small (r_rpos r + d)) by lia.
      rewrite wrap_in by lia. cbn [obind]. eexists. split; [reflexivity|]. split; [|reflexivity].
      constructor; cbn [r_len r_rpos r_wpos]; try assumption; try lia.
      rewrite Z.mod_small by lia. lia.
    - destruct (t_checks t) eqn:Hc.
      + right. specialize (w_c0 eq_refl). rewrite w_w0. rewrite Z.mod_small by lia.
        rewrite wrap_out by lia. split; [reflexivity|]. split; [reflexivity|lia].
      + left. rewrite w_w0, wrap_mod; [|lia|right; reflexivity]. cbn [obind].
        eexists. split; [reflexivity|]. split; [|reflexivity].
        constructor; cbn [r_len r_rpos r_wpos]; try assumption; try lia; try congruence.
        rewrite Zplus_mod_idemp_l. f_equal. lia.
  Qed.

  Lemma w_store r d max i s : winv r d -> 0 <= max ->
    (exists r', ring_slice_store t r max i s = Ret r' /\ winv r' d /\ r_len r' = r_len r /\
       r_rpos r' = r_rpos r) \/
    ring_slice_store t r max i s = Panic.
  Proof.
    intros I Hm. unfold ring_slice_store, ring_write_offset. rewrite (w_urem r d _ I).
    destruct (w_write_slice r d max I Hm) as (w & E & _). rewrite E. cbn [obind].
    destruct ((0 <=? i) && (i + zlen s <=? zlen w)); [left|right; reflexivity].
    eexists. split; [reflexivity|]. split; [|split; reflexivity]. destruct I.
    constructor; cbn [r_len r_rpos r_wpos]; assumption.
  Qed.

  (** Result of a call: a good ring with the same capacity, or a panic. *)
  Definition fine {A} (cap : Z) (x : out io_error A) (f : A -> ring) : Prop :=
    match x with
    | Ret a => (exists d, winv (f a) d) /\ r_len (f a) = cap
    | Panic => True
    | _ => False
    end.

  Lemma w_store_feed r d max s n : winv r d -> 0 <= max -> 0 <= n ->
    fine (r_len r) (let* r1 := ring_slice_store t r max 0 s in ring_feed t r1 n) (fun r => r).
  Proof.
    intros I Hm Hn. destruct (w_store r d max 0 s I Hm) as [(r1 & E & I1 & L1 & _)|E];
      rewrite E; cbn [obind]; [|exact Logic.I].
    destruct (w_feed r1 d n I1 Hn) as [(r2 & E2 & I2 & L2)|(E2 & _)]; rewrite E2; cbn [fine];
      [|exact Logic.I].
    split; [eexists; exact I2|lia].
  Qed.

  Lemma w_write r d b : winv r d ->
    match ring_write t r b with
    | Ret (r', n) => (exists d', winv r' d') /\ r_len r' = r_len r /\ 0 <= n <= zlen b
    | Panic => True
    | _ => False
    end.
  Proof.
    intros I. pose proof (zlen_nonneg b) as Hb. unfold ring_write.
    destruct (w_write_slice r d (zlen b) I Hb) as (s & E & L). rewrite E. cbn [obind].
    pose proof (w_store_feed r d (zlen b) (ztake (zlen s) b) (zlen s) I Hb (zlen_nonneg s)) as H.
    destruct (ring_slice_store t r (zlen b) 0 (ztake (zlen s) b)) as [r1| | | |]; cbn [obind] in *;
      try exact H; try exact Logic.I.
    destruct (ring_feed t r1 (zlen s)) as [r2| | | |]; cbn [obind fine] in *;
      try exact H; try exact Logic.I.
    destruct H as [H1 H2]. split; [exact H1|]. split; [exact H2|].
    pose proof (zlen_nonneg s). lia.
  Qed.

  Lemma w_write_all_loop f : forall r d b, winv r d -> (length b <= f)%nat ->
    fine (r_len r) (ring_write_all_loop t f r b) fst.
  Proof.
    induction f as [|f IH]; intros r d b I Hf.
    - destruct b; [|cbn in Hf; lia]. cbn. split; [eexists; exact I|reflexivity].
    - destruct b as [|b0 b]; [cbn; split; [eexists; exact I|reflexivity]|].
      cbn [ring_write_all_loop]. pose proof (w_write r d (b0 :: b) I) as H.
      destruct (ring_write t r (b0 :: b)) as [[r' n]| | | |]; cbn [obind]; try exact H; try exact Logic.I.
      destruct H as ([d' I'] & L & Hn). destruct (Z.eqb_spec n 0).
      + cbn. split; [eexists; exact I'|exact L].
      + rewrite <- L. apply (IH r' d'); [exact I'|].
        unfold zdrop. rewrite skipn_length. cbn [length] in *. lia.
  Qed.

  Lemma w_read_until r d c : winv r d -> fine (r_len r) (ring_read_until t r c) fst.
  Proof.
    intros I. unfold ring_read_until. cbn [ring_read_until_loop].
    assert (Hu : r_len r <= umax t) by (destruct I; unfold umax; lia).
    assert (Hu0 : 0 <= umax t) by (destruct I; lia).
    destruct (w_read_slice r d (umax t) I Hu0) as (s & E & L). rewrite E. cbn [obind].
    destruct (find_byte c s) as [k|] eqn:Hf.
    - destruct (find_byte_some c s k Hf) as [Hk _].
      destruct (w_consume r d (k + 1) I) as (r' & E' & I' & L'); [lia|].
      rewrite E'. cbn. split; [eexists; exact I'|exact L'].
    - destruct (w_consume r d (zlen s) I (zlen_nonneg s)) as (r' & E' & I' & L').
      rewrite E'. cbn [obind]. destruct (Z.eqb_spec (zlen s) 0).
      + cbn. split; [eexists; exact I'|exact L'].
      + destruct (w_read_slice r' _ (umax t) I' Hu0) as (s2 & E2 & L2). rewrite E2. cbn [obind].
        assert (Hs2 : s2 = []) by (apply zlen_0; destruct I; lia). subst s2. cbn [find_byte].
        destruct (w_consume r' _ (zlen (@nil byte)) I') as (r2 & E3 & I3 & L3); [cbn; lia|].
        rewrite E3. cbn. split; [eexists; exact I3|lia].
  Qed.

  Lemma w_put_loop f : forall r d b, winv r d -> (length b <= f)%nat -> zlen b <= r_len r - d ->
    fine (r_len r) (ring_put_loop t f r b) (fun r => r).
  Proof.
    intros r d b I Hf Hb. destruct b as [|b0 b].
    { destruct f; cbn; (split; [eexists; exact I|reflexivity]). }
    destruct f as [|f]; [cbn in Hf; lia|]. cbn [ring_put_loop].
    set (s := b0 :: b) in *. pose proof (zlen_nonneg s) as Hs0.
    assert (Hu : r_len r <= umax t) by (destruct I; unfold umax; lia).
    assert (Hu0 : 0 <= umax t) by (destruct I; lia).
    unfold ring_chunk_mut, ring_advance_mut.
    destruct (w_write_slice r d (umax t) I Hu0) as (w & E & L). rewrite E. cbn [obind].
    assert (Hw : zlen w = r_len r - d) by (destruct I; lia).
    replace (Z.min (zlen w) (zlen s)) with (zlen s) by lia.
    rewrite (ztake_all (zlen s) s), (zdrop_all (zlen s) s) by lia.
    pose proof (w_store_feed r d (umax t) s (zlen s) I Hu0 Hs0) as H.
    destruct (ring_slice_store t r (umax t) 0 s) as [r1| | | |]; cbn [obind] in *;
      try exact H; try exact Logic.I.
    destruct (ring_feed t r1 (zlen s)) as [r2| | | |]; cbn [obind] in *; try exact H; try exact Logic.I.
    destruct f; exact H.
  Qed.

  Lemma w_step r d o : winv r d -> rop_ok t o -> fine (r_len r) (ring_step t r o) fst.
  Proof.
    intros I Ho. destruct o as [b|b|n|n|n|max i s|max|c|b|]; cbn [ring_step rop_ok] in *;
      unfold is_usize in *.
    - pose proof (w_write r d b I) as H. destruct (ring_write t r b) as [[r' n]| | | |]; cbn;
        try exact H; try exact Logic.I. destruct H as (H1 & H2 & _). auto.
    - pose proof (w_write_all_loop (length b) r d b I (le_n _)) as H. unfold ring_write_all.
      destruct (ring_write_all_loop t (length b) r b) as [[r' n]| | | |]; cbn in *;
        try exact H; try exact Logic.I.
    - unfold ring_read. destruct (w_read_slice r d n I) as (s & E & L); [lia|].
      rewrite E. cbn [obind].
      destruct (w_consume r d (zlen s) I (zlen_nonneg s)) as (r' & E' & I' & L').
      rewrite E'. cbn. split; [eexists; exact I'|exact L'].
    - destruct (w_consume r d n I) as (r' & E' & I' & L'); [lia|].
      rewrite E'. cbn. split; [eexists; exact I'|exact L'].
    - destruct (w_feed r d n I) as [(r' & E' & I' & L')|(E' & _)]; [lia| |];
        rewrite E'; cbn; [split; [eexists; exact I'|exact L']|exact Logic.I].
    - destruct (w_store r d max i s I) as [(r' & E' & I' & L' & _)|E']; [lia| |];
        rewrite E'; cbn; [split; [eexists; exact I'|exact L']|exact Logic.I].
    - destruct (w_read_slice r d max I) as (s & E & L); [lia|].
      rewrite E. cbn. split; [eexists; exact I|reflexivity].
    - pose proof (w_read_until r d c I) as H.
      destruct (ring_read_until t r c) as [[r' s]| | | |]; cbn in *; try exact H; try exact Logic.I.
    - unfold ring_put_slice, ring_remaining_mut. rewrite (w_write_len r d I). cbn [obind].
      destruct (Z.ltb_spec (r_len r - d) (zlen b)); [exact Logic.I|].
      pose proof (w_put_loop (length b) r d b I (le_n _) ltac:(lia)) as HP.
      destruct (ring_put_loop t (length b) r b); cbn in *; try exact HP; try exact Logic.I.
    - cbn. split; [|reflexivity]. exists 0. destruct I.
      constructor; cbn [ring_clear r_len r_rpos r_wpos]; try assumption; try lia; reflexivity.
  Qed.

  Lemma w_run os : forall r d, winv r d -> Forall (rop_ok t) os ->
    fine (r_len r) (ring_run t r os) fst.
  Proof.
    induction os as [|o os IH]; intros r d I Ho.
    - cbn. split; [eexists; exact I|reflexivity].
    - inversion Ho as [|? ? Ho1 Ho2]; subst. cbn [ring_run].
      pose proof (w_step r d o I Ho1) as H. destruct (ring_step t r o) as [[r1 x]| | | |];
        cbn [obind fst snd fine] in *; try exact H; try exact Logic.I.
      destruct H as [[d1 I1] L1]. pose proof (IH r1 d1 I1 Ho2) as H2.
      destruct (ring_run t r1 os) as [[r2 xs]| | | |]; cbn [obind fst snd fine] in *;
        try exact H2; try exact Logic.I.
      destruct H2 as [H2 L2]. split; [exact H2|lia].
  Qed.

  Lemma w_make cap m : 0 < cap -> 2 * cap <= 2 ^ t_bits t -> winv (ring_make cap m) 0.
  Proof.
    intros Hc Hw. pose proof (word_le t Hbits). constructor; cbn [ring_make r_len r_rpos r_wpos];
      try assumption; try lia; reflexivity.
  Qed.

  Lemma accounting cap m os : 0 < cap -> 2 * cap < 2 ^ t_bits t -> Forall (rop_ok t) os ->
    match ring_run t (ring_make cap m) os with
    | Ret (r, _) =>
      exists ro wo rl wl,
        ring_write_capacity r = cap /\
        ring_read_offset t r = Ret ro /\ ring_write_offset t r = Ret wo /\
        ring_read_len t r = Ret rl /\ ring_write_len t r = Ret wl /\
        0 <= ro < cap /\ 0 <= wo < cap /\ 0 <= rl /\ 0 <= wl /\ rl + wl = cap /\
        ring_is_empty t r = Ret (rl =? 0) /\ ring_is_full t r = Ret (wl =? 0) /\
        (forall n, is_usize t n -> exists r', ring_consume t r n = Ret r' /\
           ring_read_len t r' = Ret (rl - Z.min n rl)) /\
        (forall n, is_usize t n ->
           (exists r', ring_feed t r n = Ret r' /\ ring_read_len t r' = Ret (rl + Z.min n wl)) \/
           (ring_feed t r n = Panic /\ t_checks t = true /\
            2 ^ 64 <= r_rpos r + rl + Z.min n wl)) /\
        (forall max, is_usize t max -> exists s, ring_read_slice t r max = Ret s /\
           zlen s = Z.min rl max) /\
        (forall max, is_usize t max -> exists s, ring_write_slice t r max = Ret s /\
           zlen s = Z.min wl max)
    | Panic => True
    | _ => False
    end.
  Proof.
    intros Hc Hw Ho. pose proof (w_make cap m Hc ltac:(lia)) as I0.
    pose proof (w_run os _ _ I0 Ho) as H.
    destruct (ring_run t (ring_make cap m) os) as [[r xs]| | | |]; cbn [fine fst] in *;
      try exact H; try exact Logic.I.
    destruct H as [[d I] L]. cbn [ring_make r_len] in L.
    exists (as_usize t (r_rpos r) mod cap), (as_usize t (r_wpos r) mod cap), d, (cap - d).
    unfold ring_is_empty, ring_is_full, ring_read_offset, ring_write_offset.
    rewrite !(w_urem r d _ I), (w_read_len r d I), (w_write_len r d I). rewrite L.
    pose proof (w_d _ _ I) as Hd. rewrite L in Hd.
    split; [exact L|]. do 4 (split; [reflexivity|]).
    split; [apply Z.mod_pos_bound; lia|]. split; [apply Z.mod_pos_bound; lia|].
    do 3 (split; [lia|]). do 2 (split; [reflexivity|]). split; [|split; [|split]].
    - intros n Hn. unfold is_usize in Hn. destruct (w_consume r d n I) as (r' & E & I' & _); [lia|].
      exists r'. split; [exact E|]. apply w_read_len, I'.
    - intros n Hn. unfold is_usize in Hn. destruct (w_feed r d n I) as [(r' & E & I' & _)|HP]; [lia| |].
      + left. exists r'. split; [exact E|]. rewrite <- L. apply w_read_len, I'.
      + right. rewrite <- L. exact HP.
    - intros max Hm. unfold is_usize in Hm. apply (w_read_slice r d max I). lia.
    - intros max Hm. unfold is_usize in Hm. rewrite <- L. apply (w_write_slice r d max I). lia.
  Qed.
End W.
