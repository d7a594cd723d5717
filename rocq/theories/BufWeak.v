(** The buffered reader and writer over arbitrary inner objects, including
    ones that break the contracts of [std::io::Read] and [std::io::Write], and
    over histories of any length: no memory outside the ring is touched and
    the ring stays consistent. *)
From Coq Require Import Lia.
From Verif Require Import Base ErrorModel RingSpec RingModel BufSpec BufModel SeqProofs SizeProofs
  RingProofs RingWeak.

Definition ranswer_ok (t : target) (a : ranswer) : Prop :=
  match a with Lie _ k => is_usize t k | _ => True end.
Definition wanswer_ok (t : target) (a : wanswer) : Prop :=
  match a with Claim k => is_usize t k | _ => True end.

Section B.
  Variable t : target.
  Hypothesis Hbits : 32 <= t_bits t <= 64.
  Variable cap : Z.

  Definition rgood (b : bufreader) : Prop :=
    (exists d, winv t (br_ring b) d) /\ r_len (br_ring b) = cap /\
    Forall (ranswer_ok t) (rs_script (br_src b)) /\ 0 <= br_lowat b.
  Definition wgood (b : bufwriter) : Prop :=
    (exists d, winv t (bw_ring b) d) /\ r_len (bw_ring b) = cap /\
    Forall (wanswer_ok t) (ws_script (bw_sink b)).

  Lemma src_weak n s s' d r : 0 <= n -> Forall (ranswer_ok t) (rs_script s) -> src_read n s = (s', d, r) ->
    Forall (ranswer_ok t) (rs_script s') /\ zlen d <= n /\
    match r with Ret k => 0 <= k | Fault => False | _ => True end.
  Proof.
    intros Hn Hs. unfold src_read. destruct (rs_script s) as [|a rest] eqn:E.
    - intros X. injection X as <- <- <-. rewrite E. split; [constructor|]. split; [cbn; lia|exact Logic.I].
    - inversion Hs as [|? ? Ha Hr]; subst. destruct a as [k|d0 k|d0 e|d0]; intros X; injection X as <- <- <-;
        cbn [rs_script]; (split; [exact Hr|]).
      + split; [|apply zlen_nonneg]. destruct (Z.le_gt_cases 0 (Z.min k n)); [rewrite zlen_ztake by lia; lia|].
        rewrite ztake_neg by lia. cbn. lia.
      + cbn [ranswer_ok] in Ha. unfold is_usize in Ha. split; [rewrite zlen_ztake by lia; lia|lia].
      + split; [rewrite zlen_ztake by lia; lia|exact Logic.I].
      + split; [rewrite zlen_ztake by lia; lia|exact Logic.I].
  Qed.

  Lemma umax_nonneg : 0 <= umax t.
  Proof. pose proof (word_pos t Hbits). unfold umax. lia. Qed.

  Lemma fill_weak b b' r : rgood b -> br_fill_buf t b = (b', r) -> rgood b' /\ r <> Fault /\
    (forall s, r = Ret s -> br_buffer t b' = Ret s).
  Proof.
    intros ([d I] & L & Hs & Hlw). pose proof umax_nonneg as Hu.
    unfold br_fill_buf. rewrite (w_read_len t Hbits _ _ I). cbn [sbind].
    assert (Done : forall b0, rgood b0 -> forall r0, br_buffer t b0 = r0 -> rgood b0 /\ r0 <> Fault /\
        (forall s, r0 = Ret s -> br_buffer t b0 = Ret s)).
    { intros b0 G r0 E0. split; [exact G|]. split; [|congruence]. destruct G as ([d0 I0] & _).
      unfold br_buffer in E0. destruct (w_read_slice t Hbits _ _ (umax t) I0 Hu) as (s & Es & _). congruence. }
    assert (G : rgood b) by (split; [exists d; exact I|auto]).
    destruct (d <=? br_lowat b).
    2:{ cbn [sbind]. intros E. injection E as <- <-. apply Done; auto. }
    destruct (w_write_slice t Hbits _ _ (umax t) I Hu) as (w & Ew & Lw). rewrite Ew. cbn [sbind].
    destruct (src_read (zlen w) (br_src b)) as [[s' dd] res] eqn:Er.
    destruct (src_weak _ _ _ _ _ (zlen_nonneg w) Hs Er) as (Hs' & Hd & Hres).
    cbn [br_with_src br_ring br_src br_lowat].
    assert (G1 : rgood (br_with_src b s')) by (split; [exists d; exact I|auto]).
    destruct (w_store t Hbits _ _ (umax t) 0 dd I Hu) as [(r1 & E1 & I1 & L1 & _)|E1]; rewrite E1; cbn [on_ring sbind].
    2:{ intros E. injection E as <- <-. split; [exact G1|]. split; discriminate. }
    set (b1 := br_with_ring _ r1).
    assert (G2 : rgood b1) by (split; [exists d; exact I1|]; split; [cbn; lia|]; split; [exact Hs'|exact Hlw]).
    destruct res as [k|e| | |]; try contradiction; cbn [sbind];
      try (intros E; injection E as <- <-; split; [exact G2|]; split; discriminate).
    destruct (w_feed t Hbits _ _ k I1 Hres) as [(r2 & E2 & I2 & L2)|(E2 & _)]; unfold b1; cbn [br_with_ring br_ring];
      rewrite E2; cbn [on_ring sbind]; intros E; injection E as <- <-.
    - apply Done; [|reflexivity]. split; [eexists; exact I2|]. split; [cbn; lia|]. split; [exact Hs'|exact Hlw].
    - split; [exact G2|]. split; discriminate.
  Qed.

  Lemma consume_weak b n b' r : rgood b -> 0 <= n -> br_consume t b n = (b', r) -> rgood b' /\ r = Ret tt.
  Proof.
    intros ([d I] & L & Hs & Hlw) Hn. unfold br_consume.
    destruct (w_consume t Hbits _ _ n I Hn) as (r' & E & I' & L'). rewrite E. cbn [on_ring].
    intros X. injection X as <- <-. split; [|reflexivity]. split; [eexists; exact I'|]. split; [cbn; lia|]. split; [exact Hs|exact Hlw].
  Qed.

  Lemma read_weak b n b' d r : rgood b -> 0 <= n -> br_read t b n = (b', d, r) ->
    rgood b' /\ r <> Fault /\ zlen d <= n /\ (forall k, r = Ret k -> 0 <= k).
  Proof.
    intros G Hn. pose proof G as ([d0 I] & L & Hs & Hlw).
    unfold br_read. rewrite (w_read_len t Hbits _ _ I). cbn [sbind].
    destruct ((d0 =? 0) && (ring_write_capacity (br_ring b) <=? n)).
    - destruct (src_read n (br_src b)) as [[s' dd] res] eqn:Er. intros X. injection X as <- <- <-.
      destruct (src_weak _ _ _ _ _ Hn Hs Er) as (Hs' & Hd & Hres).
      split; [split; [exists d0; exact I|auto]|]. split; [intros ->; exact Hres|]. split; [exact Hd|].
      intros k ->. exact Hres.
    - destruct (br_fill_buf t b) as [b1 r1] eqn:E1. destruct (fill_weak _ _ _ G E1) as (G1 & N1 & _).
      destruct r1 as [avail|e| | |]; try congruence;
        try (intros X; injection X as <- <- <-; split; [exact G1|]; split; [discriminate|]; split; [cbn; lia|discriminate]).
      destruct (br_consume t b1 (zlen (ztake n avail))) as [b2 r2] eqn:E2.
      destruct (consume_weak _ _ _ _ G1 (zlen_nonneg _) E2) as (G2 & ->).
      intros X. injection X as <- <- <-. split; [exact G2|]. split; [discriminate|].
      split; [rewrite zlen_ztake by lia; lia|]. intros k [= <-]. apply zlen_nonneg.
  Qed.

  Lemma until_weak fuel : forall b c acc b' acc' r, rgood b -> br_until_loop t fuel b c acc = (b', acc', r) ->
    rgood b' /\ r <> Fault.
  Proof.
    induction fuel as [|f IH]; intros b c acc b' acc' r G; cbn [br_until_loop].
    - intros X. injection X as <- _ <-. split; [exact G|discriminate].
    - destruct (br_fill_buf t b) as [b1 r1] eqn:E1. destruct (fill_weak _ _ _ G E1) as (G1 & N1 & _).
      destruct r1 as [avail|e| | |]; try congruence;
        try (intros X; injection X as <- _ <-; split; [exact G1|discriminate]).
      + destruct (find_byte c avail) as [k|] eqn:Ef.
        * destruct (find_byte_some _ _ _ Ef) as (Hk & _).
          destruct (br_consume t b1 (k + 1)) as [b2 r2] eqn:E2.
          destruct (consume_weak b1 (k + 1) b2 r2 G1 ltac:(lia) E2) as (G2 & ->).
          intros X. injection X as <- _ <-. split; [exact G2|discriminate].
        * destruct (br_consume t b1 (zlen avail)) as [b2 r2] eqn:E2.
          destruct (consume_weak _ _ _ _ G1 (zlen_nonneg _) E2) as (G2 & ->).
          destruct (zlen avail =? 0); [|apply IH, G2].
          intros X. injection X as <- _ <-. split; [exact G2|discriminate].
      + destruct (io_kind_of e); try (intros X; injection X as <- _ <-; split; [exact G1|discriminate]).
        apply IH, G1.
  Qed.

  Lemma exact_weak fuel : forall b n acc b' acc' r, rgood b -> 0 <= n -> br_exact_loop t fuel b n acc = (b', acc', r) ->
    rgood b' /\ r <> Fault.
  Proof.
    induction fuel as [|f IH]; intros b n acc b' acc' r G Hn; cbn [br_exact_loop].
    - destruct (n <=? 0); intros X; injection X as <- _ <-; (split; [exact G|discriminate]).
    - destruct (n <=? 0); [intros X; injection X as <- _ <-; split; [exact G|discriminate]|].
      destruct (br_read t b n) as [[b1 d] r1] eqn:E1. destruct (read_weak _ _ _ _ _ G Hn E1) as (G1 & N1 & _ & Hk).
      destruct r1 as [k|e| | |]; try congruence;
        try (intros X; injection X as <- _ <-; split; [exact G1|discriminate]).
      + destruct (k =? 0); [intros X; injection X as <- _ <-; split; [exact G1|discriminate]|].
        destruct (Z.ltb_spec n k); [intros X; injection X as <- _ <-; split; [exact G1|discriminate]|].
        apply IH; [exact G1|lia].
      + destruct (io_kind_of e); try (intros X; injection X as <- _ <-; split; [exact G1|discriminate]).
        apply IH; [exact G1|exact Hn].
  Qed.

  Lemma br_step_weak b o b' d r : rgood b -> brop_ok t o -> br_step t b o = (b', d, r) -> rgood b' /\ r <> Fault.
  Proof.
    intros G Ho. destruct o as [n| |n|n|c|n]; cbn [br_step brop_ok] in *; unfold is_usize in *.
    - destruct (br_read t b n) as [[b1 d1] r1] eqn:E1. destruct (read_weak _ _ _ _ _ G (proj1 Ho) E1) as (G1 & N1 & _).
      intros X. injection X as <- _ <-. split; [exact G1|]. destruct r1; cbn; congruence.
    - destruct (br_fill_buf t b) as [b1 r1] eqn:E1. destruct (fill_weak _ _ _ G E1) as (G1 & N1 & _).
      intros X. injection X as <- _ <-. split; [exact G1|]. destruct r1; cbn; congruence.
    - destruct (br_consume t b n) as [b1 r1] eqn:E1. destruct (consume_weak _ _ _ _ G (proj1 Ho) E1) as (G1 & ->).
      intros X. injection X as <- _ <-. split; [exact G1|discriminate].
    - intros X. injection X as <- _ <-. split; [|discriminate]. destruct G as (I & L & Hs & Hlw).
      split; [exact I|]. split; [exact L|]. split; [exact Hs|]. cbn. lia.
    - apply until_weak, G.
    - apply exact_weak; [exact G|lia].
  Qed.

  Lemma br_run_weak os : forall b b' d rs, rgood b -> Forall (brop_ok t) os -> br_run t b os = (b', d, rs) ->
    rgood b' /\ Forall (fun r => r <> Fault) rs.
  Proof.
    induction os as [|o os IH]; intros b b' d rs G Ho; cbn [br_run].
    - intros X. injection X as <- _ <-. split; [exact G|constructor].
    - inversion Ho as [|? ? Ho1 Ho2]; subst. destruct (br_step t b o) as [[b1 d1] r1] eqn:E1.
      destruct (br_step_weak _ _ _ _ _ G Ho1 E1) as (G1 & N1).
      destruct r1; try congruence;
        try (intros X; injection X as <- _ <-; split; [exact G1|repeat constructor; discriminate]);
        destruct (br_run t b1 os) as [[b2 d2] rs2] eqn:E2; destruct (IH _ _ _ _ G1 Ho2 E2) as (G2 & F2);
        intros X; injection X as <- _ <-; (split; [exact G2|constructor; [discriminate|exact F2]]).
  Qed.

  (** Writer. *)
  Lemma inner_weak b buf b' r : wgood b -> bw_inner_write b buf = (b', r) ->
    wgood b' /\ bw_ring b' = bw_ring b /\ match r with Ret k => 0 <= k | Fault => False | _ => True end.
  Proof.
    intros (I & L & Hs). unfold bw_inner_write, sink_write. destruct (ws_script (bw_sink b)) as [|a rest] eqn:E.
    - intros X. injection X as <- <-. split; [|auto]. split; [exact I|]. split; [exact L|]. cbn. rewrite E. exact Hs.
    - inversion Hs as [|? ? Ha Hr]; subst. destruct a as [k|k|e|]; intros X; injection X as <- <-;
        (split; [split; [exact I|]; split; [exact L|exact Hr]|]); (split; [reflexivity|]); trivial.
      + apply zlen_nonneg.
      + cbn [wanswer_ok] in Ha. unfold is_usize in Ha. lia.
  Qed.

  Lemma flush_weak fuel : forall b b' r, wgood b -> bw_flush_loop t fuel b = (b', r) -> wgood b' /\ r <> Fault.
  Proof.
    induction fuel as [|f IH]; intros b b' r G; cbn [bw_flush_loop].
    - intros X. injection X as <- <-. split; [exact G|discriminate].
    - pose proof G as ([d I] & L & Hs). pose proof umax_nonneg as Hu.
      unfold ring_is_empty. rewrite (w_read_len t Hbits _ _ I). cbn [obind sbind].
      destruct (d =? 0); [intros X; injection X as <- <-; split; [exact G|discriminate]|].
      unfold bw_buffer. destruct (w_read_slice t Hbits _ _ (umax t) I Hu) as (s & Es & _). rewrite Es. cbn [sbind].
      destruct (bw_inner_write b s) as [b1 r1] eqn:E1. destruct (inner_weak _ _ _ _ G E1) as (G1 & R1 & M1).
      destruct r1 as [k|e| | |]; try contradiction;
        try (intros X; injection X as <- <-; split; [exact G1|discriminate]).
      + destruct (k =? 0); [intros X; injection X as <- <-; split; [exact G1|discriminate]|].
        rewrite R1. destruct (w_consume t Hbits _ _ k I M1) as (r' & E' & I' & L'). rewrite E'.
        apply IH. split; [eexists; exact I'|]. split; [cbn; lia|]. destruct G1 as (_ & _ & Hs1). exact Hs1.
      + destruct (io_kind_of e); try (intros X; injection X as <- <-; split; [exact G1|discriminate]).
        apply IH, G1.
  Qed.

  Lemma write_weak b buf b' r : wgood b -> bw_write t b buf = (b', r) ->
    wgood b' /\ r <> Fault /\ (forall k, r = Ret k -> 0 <= k).
  Proof.
    intros G. pose proof G as ([d I] & L & Hs). unfold bw_write. rewrite (w_write_len t Hbits _ _ I). cbn [sbind].
    assert (Tail : forall b0, wgood b0 ->
      sbind (b0, ring_write_len t (bw_ring b0)) (fun b wl' =>
        if wl' <=? zlen buf then bw_inner_write b buf
        else match ring_write t (bw_ring b) buf with
             | Ret (r', n) => ({| bw_ring := r'; bw_sink := bw_sink b; bw_panicked := bw_panicked b |}, Ret n)
             | Err e => (b, Err e)
             | Panic => (b, Panic)
             | Fault => (b, Fault)
             | Blocked => (b, Blocked)
             end) = (b', r) -> wgood b' /\ r <> Fault /\ (forall k, r = Ret k -> 0 <= k)).
    { intros b0 G0. pose proof G0 as ([d0 I0] & L0 & Hs0). rewrite (w_write_len t Hbits _ _ I0). cbn [sbind].
      destruct (_ <=? zlen buf).
      - intros E. destruct (inner_weak _ _ _ _ G0 E) as (G1 & _ & M). split; [exact G1|]. split; [intros ->; exact M|].
        intros k ->. exact M.
      - pose proof (w_write t Hbits _ _ buf I0) as HW. destruct (ring_write t (bw_ring b0) buf) as [[r' n]| | | |];
          try contradiction.
        + destruct HW as (Hw & Lw & Hn). intros X. injection X as <- <-. split; [split; [exact Hw|split; [cbn; lia|exact Hs0]]|].
          split; [discriminate|]. intros k [= <-]. lia.
        + intros X. injection X as <- <-. split; [exact G0|]. split; discriminate. }
    destruct (_ <? zlen buf).
    - unfold bw_flush_buf. destruct (bw_flush_loop t _ b) as [b1 r1] eqn:E1.
      destruct (flush_weak _ _ _ _ G E1) as (G1 & N1). cbn [sbind].
      destruct r1; try congruence; try (intros X; injection X as <- <-; split; [exact G1|split; discriminate]).
      apply Tail, G1.
    - cbn [sbind]. apply Tail, G.
  Qed.

  Lemma write_all_weak fuel : forall b buf tld b' d r, wgood b -> bw_write_all_loop t fuel b buf tld = (b', d, r) ->
    wgood b' /\ r <> Fault.
  Proof.
    induction fuel as [|f IH]; intros b buf tld b' d r G; destruct buf as [|x buf];
      cbn [bw_write_all_loop]; try (intros X; injection X as <- _ <-; split; [exact G|discriminate]).
    destruct (bw_write t b (x :: buf)) as [b1 r1] eqn:E1. destruct (write_weak _ _ _ _ G E1) as (G1 & N1 & _).
    destruct r1 as [k|e| | |]; try congruence; try (intros X; injection X as <- _ <-; split; [exact G1|discriminate]).
    - destruct (k =? 0); [intros X; injection X as <- _ <-; split; [exact G1|discriminate]|].
      destruct (_ <? k); [intros X; injection X as <- _ <-; split; [exact G1|discriminate]|].
      apply IH, G1.
    - destruct (io_kind_of e); try (intros X; injection X as <- _ <-; split; [exact G1|discriminate]).
      apply IH, G1.
  Qed.

  Lemma bw_step_weak b o b' d r : wgood b -> bw_step t b o = (b', d, r) -> wgood b' /\ r <> Fault.
  Proof.
    intros G. destruct o as [buf|buf|]; cbn [bw_step].
    - destruct (bw_write t b buf) as [b1 r1] eqn:E1. destruct (write_weak _ _ _ _ G E1) as (G1 & N1 & _).
      intros X. injection X as <- _ <-. split; [exact G1|]. destruct r1; cbn; congruence.
    - apply write_all_weak, G.
    - unfold bw_flush, bw_flush_buf. destruct (bw_flush_loop t _ b) as [b1 r1] eqn:E1.
      destruct (flush_weak _ _ _ _ G E1) as (G1 & N1). cbn [sbind].
      destruct r1; try congruence; try (intros X; injection X as <- _ <-; split; [exact G1|discriminate]).
      destruct G1 as (I1 & L1 & Hs1). unfold sink_flush. destruct (ws_script (bw_sink b1)) as [|wa rest] eqn:E.
      + intros X. injection X as <- _ <-. split; [|discriminate]. split; [exact I1|]. split; [exact L1|]. cbn. rewrite E. constructor.
      + inversion Hs1 as [|? ? Ha Hr]; subst.
        destruct wa; intros X; injection X as <- _ <-; (split; [|discriminate]); (split; [exact I1|]); (split; [exact L1|exact Hr]).
  Qed.

  Lemma bw_run_weak os : forall b b' d rs, wgood b -> bw_run t b os = (b', d, rs) ->
    wgood b' /\ Forall (fun r => r <> Fault) rs.
  Proof.
    induction os as [|o os IH]; intros b b' d rs G; cbn [bw_run].
    - intros X. injection X as <- _ <-. split; [exact G|constructor].
    - destruct (bw_step t b o) as [[b1 d1] r1] eqn:E1. destruct (bw_step_weak _ _ _ _ _ G E1) as (G1 & N1).
      destruct r1; try congruence;
        try (intros X; injection X as <- _ <-; split; [exact G1|repeat constructor; discriminate]);
        destruct (bw_run t b1 os) as [[b2 d2] rs2] eqn:E2; destruct (IH _ _ _ _ G1 E2) as (G2 & F2);
        intros X; injection X as <- _ <-; (split; [exact G2|constructor; [discriminate|exact F2]]).
  Qed.

  Lemma drop_weak b s r : wgood b -> bw_drop t b = (s, r) -> r <> Fault /\ forall e, r <> Err e.
  Proof.
    intros G. unfold bw_drop. destruct (bw_panicked b).
    - intros X. injection X as _ <-. split; discriminate.
    - unfold bw_flush_buf. destruct (bw_flush_loop t _ b) as [b1 r1] eqn:E1. destruct (flush_weak _ _ _ _ G E1) as (G1 & N1).
      intros X. injection X as _ <-. destruct r1; split; congruence.
  Qed.
End B.
