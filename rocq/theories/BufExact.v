(** Buffered readers and writers over histories of any length: for which
    targets and capacities the stream survives. *)
From Coq Require Import Lia Permutation Znumtheory.
From Verif Require Import Base ErrorModel RingSpec RingModel RingExactSpec BufSpec BufModel SeqProofs SizeProofs
  RingProofs RingTheorems RingWeak RingClaims RingExact RingExactClaims BufReaderProofs BufWriterProofs BufWeak
  BufClaims BufExactSpec.

Lemma pair_eq {A B} (x : A * B) a b : x = (a, b) -> fst x = a /\ snd x = b.
Proof. intros ->. auto. Qed.

(** ** A ring full of zeros, empty at position [x] *)
Section Z.
  Variable t : target.
  Hypothesis Hg : good_target t.
  Let Hb : 32 <= t_bits t <= 64 := good_bits t Hg.
  Variable cap : Z.
  Hypothesis Hc : 0 < cap.
  Hypothesis Hw : 2 * cap < 2 ^ t_bits t.

  Definition zring (x : Z) (r : ring) : Prop := inv t r x x /\ r_len r = cap /\ forall i, r_mem r i = 0.

  Lemma umax_cap : cap <= umax t /\ 0 <= umax t.
  Proof. pose proof (word_pos t Hb). unfold umax. lia. Qed.

  Lemma zring_free x r : zring x r -> ring_read_len t r = Ret 0 /\ ring_write_len t r = Ret cap /\
    (forall max, 0 <= max -> exists w, ring_write_slice t r max = Ret w /\ zlen w = Z.min max cap) /\
    ring_read_slice t r (umax t) = Ret [].
  Proof.
    intros (I & L & _). pose proof umax_cap as [_ U].
    rewrite (read_len_eq t Hb _ _ _ I), (write_len_eq t Hb _ _ _ I), L, Z.sub_diag, Z.sub_0_r.
    split; [reflexivity|]. split; [reflexivity|]. split.
    - intros max Hm. rewrite (write_slice_eq t Hb _ _ _ I) by exact Hm. eexists. split; [reflexivity|].
      rewrite zlen_ztake by exact Hm. rewrite (absq_free_len t Hb _ _ _ I), L. lia.
    - rewrite (read_slice_eq t Hb _ _ _ I) by exact U. f_equal. apply zlen_0. rewrite zlen_ztake by exact U.
      rewrite (absq_data_len t Hb _ _ _ I). lia.
  Qed.

  Lemma store_mem r T R max d : inv t r T R -> 0 <= max -> zlen d <= Z.min (r_len r - (T - R)) max ->
    exists r1, ring_slice_store t r max 0 d = Ret r1 /\ inv t r1 T R /\ r_len r1 = r_len r /\
      r_mem r1 = vstore (r_len r) (r_mem r) (T mod r_len r + 0) d /\
      q_data (absq r1 T R) = q_data (absq r T R) /\
      q_free (absq r1 T R) = d ++ zdrop (zlen d) (q_free (absq r T R)).
  Proof.
    intros I Hm Hd. destruct (slice_store_ok t Hb _ _ _ I max 0 d Hm) as (r1 & E & I1 & A & L & _); [lia|lia|].
    exists r1. split; [exact E|]. split; [exact I1|]. split; [exact L|].
    rewrite A. cbn [q_data q_free]. rewrite (ztake_neg 0) by lia. rewrite Z.add_0_l. split; [|auto].
    unfold ring_slice_store in E. rewrite (write_offset_eq t Hb _ _ _ I) in E. cbn [obind] in E.
    destruct (ring_write_slice t r max); cbn [obind] in E; try discriminate E.
    destruct ((0 <=? 0) && (0 + zlen d <=? zlen a)); [|discriminate E]. injection E as <-. reflexivity.
  Qed.

  Lemma feed_mem r n r' : ring_feed t r n = Ret r' -> r_mem r' = r_mem r.
  Proof.
    unfold ring_feed. destruct (ring_write_len t r); cbn [obind]; try discriminate.
    match goal with |- context[add64 ?a ?b ?c] => destruct (add64 (E:=io_error) a b c) end; cbn [obind]; try discriminate.
    intros X. injection X as <-. reflexivity.
  Qed.
  Lemma consume_mem r n r' : ring_consume t r n = Ret r' -> r_mem r' = r_mem r.
  Proof.
    unfold ring_consume. destruct (ring_read_len t r); cbn [obind]; try discriminate.
    match goal with |- context[add64 ?a ?b ?c] => destruct (add64 (E:=io_error) a b c) end; cbn [obind]; try discriminate.
    intros X. injection X as <-. reflexivity.
  Qed.

  (** One zero goes in and out. *)
  Lemma zturn x r max : zring x r -> pos_ok t cap (x + 1) -> 1 <= max ->
    exists r1 r2 r3, ring_slice_store t r max 0 [0] = Ret r1 /\ ring_feed t r1 1 = Ret r2 /\
      ring_read_len t r2 = Ret 1 /\ ring_read_slice t r2 (umax t) = Ret [0] /\
      ring_consume t r2 1 = Ret r3 /\ zring (x + 1) r3.
  Proof.
    intros (I & L & Z) Hp Hm. pose proof umax_cap as [U1 U].
    destruct (store_mem _ _ _ max [0] I) as (r1 & E1 & I1 & L1 & M1 & D1 & F1); [lia|change (zlen [0]) with 1; lia|].
    destruct (feed_eq t Hb _ _ _ I1 1) as (r2 & E2 & I2 & A2 & L2); [lia|rewrite L1, L; eapply (pos_ok_le t Hb); [exact Hp|lia]|].
    replace (Z.min 1 (r_len r1 - (x - x))) with 1 in I2, A2 by lia.
    destruct (consume_eq t Hb _ _ _ I2 1) as (r3 & E3 & I3 & _ & L3); [lia|].
    replace (x + Z.min 1 (x + 1 - x)) with (x + 1) in I3 by lia.
    exists r1, r2, r3. split; [exact E1|]. split; [exact E2|].
    rewrite (read_len_eq t Hb _ _ _ I2), (read_slice_eq t Hb _ _ _ I2) by exact U.
    split; [f_equal; lia|]. split.
    - rewrite A2. unfold q_append. cbn [q_data]. rewrite D1, F1. cbn [absq q_data].
      rewrite view_0 by lia. cbn [app]. change (zlen [0]) with 1. cbn [app].
      change (ztake 1 (0 :: zdrop 1 (q_free (absq r x x)))) with [0]. rewrite ztake_all; [reflexivity|change (zlen [0]) with 1; lia].
    - split; [exact E3|]. split; [exact I3|]. split; [lia|].
      intros i. rewrite (consume_mem _ _ _ E3), (feed_mem _ _ _ E2), M1. cbn [vstore]. unfold upd.
      destruct (i =? _); [reflexivity|apply Z].
  Qed.

  (** Two bytes across the end of the word when the capacity does not fit it. *)
  Let W := 2 ^ t_bits t.

  Lemma zslip r max : ~ exact_positions t cap -> zring (W - 1) r -> 2 <= max ->
    2 < cap /\
    exists r1 r2 r3 r4, ring_slice_store t r max 0 [0; 2] = Ret r1 /\ ring_feed t r1 2 = Ret r2 /\
      ring_read_len t r2 = Ret 2 /\ ring_read_slice t r2 (umax t) = Ret [0; 2] /\
      ring_consume t r2 1 = Ret r3 /\ ring_read_len t r3 = Ret 1 /\ ring_read_slice t r3 (umax t) = Ret [0] /\
      ring_consume t r3 1 = Ret r4 /\ ring_read_len t r4 = Ret 0 /\ ring_read_slice t r4 (umax t) = Ret [].
  Proof.
    intros Hx (I & L & Z) Hm. pose proof umax_cap as [U1 U]. pose proof (word_pos t Hb) as WP. pose proof (word_le t Hb) as WL.
    pose proof (jump_split t Hg cap Hc Hx) as [HS Hs]. fold W in HS, Hs. set (s := W mod cap) in *.
    assert (Hcap : 2 < cap).
    { destruct (Z.eq_dec cap 1) as [->|]; [exfalso; lia|]. destruct (Z.eq_dec cap 2) as [->|]; [|lia].
      exfalso. apply Hx. left. exists (2 ^ (t_bits t - 1)). rewrite Z.mul_comm, <- Z.pow_succ_r by lia. f_equal. lia. }
    split; [exact Hcap|].
    destruct (store_mem _ _ _ max [0; 2] I) as (r1 & E1 & I1 & L1 & M1 & _); [lia|change (zlen [0;2]) with 2; lia|].
    set (m := r_mem r1).
    assert (R1 : r1 = {| r_len := cap; r_rpos := (W - 1) mod 2 ^ 64; r_wpos := (W - 1) mod 2 ^ 64; r_mem := m |}).
    { destruct I1. unfold m. destruct r1; cbn in *. f_equal; congruence || lia. }
    set (mk := fun r w => {| r_len := cap; r_rpos := r mod 2 ^ 64; r_wpos := w mod 2 ^ 64; r_mem := m |}).
    assert (E2 : ring_feed t r1 2 = Ret (mk (W - 1) (W + 1))).
    { rewrite R1. replace (W + 1) with (W - 1 + 2) by lia.
      apply (mk_feed t Hg cap Hc Hw Hx (W - 1) (W - 1) m 2); fold W; lia. }
    assert (E3 : ring_read_len t (mk (W - 1) (W + 1)) = Ret (W + 1 - (W - 1))).
    { apply (mk_read_len t Hg cap Hw Hx (W - 1) (W + 1) m); fold W; lia. }
    assert (E4 : ring_consume t (mk (W - 1) (W + 1)) 1 = Ret (mk W (W + 1))).
    { replace (mk W (W + 1)) with (mk (W - 1 + 1) (W + 1)) by (f_equal; lia).
      apply (mk_consume t Hg cap Hw Hx (W - 1) (W + 1) m 1); fold W; lia. }
    assert (E5 : ring_read_len t (mk W (W + 1)) = Ret (W + 1 - W)).
    { apply (mk_read_len t Hg cap Hw Hx W (W + 1) m); fold W; lia. }
    assert (E6 : ring_consume t (mk W (W + 1)) 1 = Ret (mk (W + 1) (W + 1))).
    { apply (mk_consume t Hg cap Hw Hx W (W + 1) m 1); fold W; lia. }
    assert (E7 : ring_read_len t (mk (W + 1) (W + 1)) = Ret (W + 1 - (W + 1))).
    { apply (mk_read_len t Hg cap Hw Hx (W + 1) (W + 1) m); fold W; lia. }
    replace (W + 1 - (W - 1)) with 2 in E3 by lia. replace (W + 1 - W) with 1 in E5 by lia. rewrite Z.sub_diag in E7.
    assert (Wm : forall y, as_usize t (y mod 2 ^ 64) = y mod W).
    { intros y. unfold as_usize. fold W. symmetry. apply Zmod_div_mod; [unfold W; lia|lia|apply pow2_div_64; lia]. }
    assert (Off : (W - 1) mod cap = s - 1).
    { replace (W - 1) with (s - 1 + (W / cap) * cap); [rewrite Z.mod_add by lia; apply Z.mod_small; lia|].
      unfold s. pose proof (Z.div_mod W cap ltac:(lia)). lia. }
    assert (Mem : forall i, 0 <= i < cap -> m i = if i =? s then 2 else 0).
    { intros i Hi. unfold m. rewrite M1, L, Off. cbn [vstore]. unfold upd.
      replace ((s - 1 + 0 + 1) mod cap) with s by (rewrite Z.mod_small; lia).
      destruct (i =? s); [reflexivity|]. destruct (i =? _); [reflexivity|apply Z]. }
    exists r1. do 3 eexists. split; [exact E1|]. split; [exact E2|]. split; [exact E3|].
    assert (Slice : forall x y off n, ring_read_len t (mk x y) = Ret n -> (x mod W) mod cap = off -> 0 <= n <= cap ->
      ring_read_slice t (mk x y) (umax t) = Ret (view (mirror m cap) off n)).
    { intros x y off n En Eo Hn. unfold ring_read_slice. rewrite En. unfold ring_read_offset, urem, mk. cbn [r_len r_rpos r_mem].
      destruct (Z.eqb_spec cap 0); [lia|]. cbn [obind]. rewrite Wm, Eo, Z.min_l by lia. unfold vslice.
      assert (0 <= off < cap) by (rewrite <- Eo; apply Z.mod_pos_bound; lia).
      destruct (Z.leb_spec 0 off); [|lia]. destruct (Z.leb_spec 0 n); [|lia].
      destruct (Z.leb_spec (off + n) (2 * cap)); [|lia]. reflexivity. }
    split.
    { rewrite (Slice _ _ (s - 1) 2 E3); [|rewrite (Z.mod_small (W - 1)) by lia; exact Off|lia].
      f_equal. change (view (mirror m cap) (s - 1) 2) with [mirror m cap (s - 1 + 0); mirror m cap (s - 1 + 1)].
      unfold mirror. replace (s - 1 + 1) with s by lia. rewrite Z.add_0_r, !Z.mod_small by lia.
      rewrite !Mem by lia. rewrite Z.eqb_refl. destruct (Z.eqb_spec (s - 1) s); [lia|reflexivity]. }
    split; [exact E4|]. split; [exact E5|]. split.
    { rewrite (Slice _ _ 0 1 E5); [|rewrite Z.mod_same by lia; apply Z.mod_0_l; lia|lia].
      f_equal. change (view (mirror m cap) 0 1) with [mirror m cap 0]. unfold mirror. rewrite Z.mod_0_l by lia.
      rewrite Mem by lia. destruct (Z.eqb_spec 0 s); [lia|reflexivity]. }
    split; [exact E6|]. split; [exact E7|].
    rewrite (Slice _ _ _ 0 E7 eq_refl) by lia. reflexivity.
  Qed.

  Lemma zmake : zring 0 (ring_make cap (fun _ => 0)).
  Proof. split; [apply (make_inv t Hb); lia|]. split; reflexivity. Qed.

  (** ** The reader *)
  Fixpoint rturns (k : nat) : list brop := match k with O => [] | S k' => [BFill; BConsume 1] ++ rturns k' end.

  Lemma fill_turn x b s sc : zring x (br_ring b) -> pos_ok t cap (x + 1) -> br_lowat b = 0 ->
    rs_src (br_src b) = 0 :: s -> rs_script (br_src b) = Give 1 :: sc ->
    exists b', (forall os, br_run t b (BFill :: BConsume 1 :: os) =
        let '(b2, d, rs) := br_run t b' os in (b2, 0 :: d, Ret tt :: Ret tt :: rs)) /\
      zring (x + 1) (br_ring b') /\ br_lowat b' = 0 /\ rs_src (br_src b') = s /\ rs_script (br_src b') = sc.
  Proof.
    intros Zr Hp Hl Hs Hsc. destruct (zring_free _ _ Zr) as (ERL & _ & EWS & _). pose proof umax_cap as [U1 U].
    destruct (EWS (umax t) U) as (w & EW & LW). rewrite Z.min_r in LW by lia.
    destruct (zturn x (br_ring b) (umax t) Zr Hp ltac:(lia)) as (r1 & r2 & r3 & E1 & E2 & E3 & E4 & E5 & Z3).
    set (s' := {| rs_src := s; rs_script := sc; rs_asked := rs_asked (br_src b) ++ [cap] |}).
    assert (EF : br_fill_buf t b = ({| br_ring := r2; br_src := s'; br_lowat := br_lowat b |}, Ret [0])).
    { unfold br_fill_buf. rewrite ERL. cbn [sbind]. rewrite Hl. change (0 <=? 0) with true. cbv iota.
      rewrite EW. cbn [sbind]. rewrite LW. unfold src_read. rewrite Hsc, Hs. cbv beta iota zeta.
      assert (T1 : @ztake byte (Z.min 1 cap) (0 :: s) = [0]) by (rewrite Z.min_l by lia; reflexivity).
      rewrite T1. change (@zlen byte [0]) with 1. change (@zdrop byte 1 (0 :: s)) with s. fold s'.
      cbn [br_with_src br_ring br_src br_lowat]. rewrite E1. cbn [on_ring sbind br_with_ring br_ring br_src br_lowat br_with_src].
      rewrite E2. cbn [on_ring sbind br_with_ring br_ring br_src br_lowat br_with_src]. unfold br_buffer, br_with_ring, br_with_src. cbn [br_ring br_src br_lowat].
      rewrite E4, Hl. reflexivity. }
    exists {| br_ring := r3; br_src := s'; br_lowat := br_lowat b |}.
    split; [|split; [exact Z3|]; split; [exact Hl|]; split; reflexivity].
    intros os. cbn [br_run br_step]. rewrite EF. cbn [obind]. unfold br_buffer, br_consume. cbn [br_ring].
    rewrite E4, E5. cbn [on_ring]. unfold br_with_ring. cbn [br_src br_lowat].
    change (ztake 1 [0]) with [0].
    destruct (br_run t {| br_ring := r3; br_src := s'; br_lowat := br_lowat b |} os) as [[b2 d2] rs2]. reflexivity.
  Qed.

  Lemma rturns_run k : forall x b s sc, zring x (br_ring b) -> pos_ok t cap (x + Z.of_nat k) -> br_lowat b = 0 ->
    rs_src (br_src b) = repeat 0 k ++ s -> rs_script (br_src b) = repeat (Give 1) k ++ sc ->
    exists b' rs', (forall os, br_run t b (rturns k ++ os) =
        let '(b2, d, rs) := br_run t b' os in (b2, repeat 0 k ++ d, rs' ++ rs)) /\
      zring (x + Z.of_nat k) (br_ring b') /\ br_lowat b' = 0 /\ rs_src (br_src b') = s /\ rs_script (br_src b') = sc.
  Proof.
    induction k as [|k IH]; intros x b s sc Zr Hp Hl Hs Hsc.
    - exists b, []. cbn [rturns app repeat]. rewrite Z.add_0_r. split; [|auto].
      intros os. destruct (br_run t b os) as [[b2 d2] rs2]. reflexivity.
    - rewrite Nat2Z.inj_succ in Hp. cbn [repeat app] in Hs, Hsc.
      destruct (fill_turn x b _ _ Zr (pos_ok_le t Hb cap (x + 1) _ Hp ltac:(lia)) Hl Hs Hsc) as (b1 & E1 & Z1 & L1 & S1 & C1).
      destruct (IH (x + 1) b1 s sc Z1) as (b2 & rs2 & E2 & Z2 & L2 & S2 & C2);
        [eapply (pos_ok_le t Hb); [exact Hp|lia]|exact L1|exact S1|exact C1|].
      exists b2, (Ret tt :: Ret tt :: rs2). split.
      + intros os. cbn [rturns app]. rewrite E1, E2. destruct (br_run t b2 os) as [[b3 d3] rs3]. reflexivity.
      + rewrite Nat2Z.inj_succ. replace (x + Z.succ (Z.of_nat k)) with (x + 1 + Z.of_nat k) by lia. auto.
  Qed.

  Lemma Forall_repeat {A} (P : A -> Prop) x n : P x -> Forall P (repeat x n).
  Proof. intros H. induction n; cbn [repeat]; constructor; auto. Qed.
  Lemma rturns_ok k : Forall (brop_ok t) (rturns k).
  Proof.
    pose proof (word_pos t Hb). induction k; cbn [rturns app]; [constructor|].
    constructor; [exact Logic.I|]. constructor; [cbn; unfold is_usize; lia|exact IHk].
  Qed.

  (** A reader after [k] bytes of zeros, ready for [os]. *)
  Lemma rstart k s sc : pos_ok t cap (Z.of_nat k) ->
    exists b' rs', (forall os, br_run t (br_new (fresh_source (repeat 0 k ++ s) (repeat (Give 1) k ++ sc)) cap (fun _ => 0)) (rturns k ++ os) =
        let '(b2, d, rs) := br_run t b' os in (b2, repeat 0 k ++ d, rs' ++ rs)) /\
      zring (Z.of_nat k) (br_ring b') /\ br_lowat b' = 0 /\ rs_src (br_src b') = s /\ rs_script (br_src b') = sc.
  Proof.
    intros Hp. apply (rturns_run k 0); [exact zmake|exact Hp|reflexivity|reflexivity|reflexivity].
  Qed.

  (** The word ends: a byte comes out that never went in. *)
  Lemma reader_slips : ~ exact_positions t cap -> exists src script os b d rs,
    br_history t cap src script os b d rs /\ ~ keeps_stream t src b d.
  Proof.
    intros Hx. pose proof (word_pos t Hb) as WP. pose proof (word_le t Hb) as WL. pose proof umax_cap as [U1 U].
    set (k := Z.to_nat (W - 1)). assert (Ek : Z.of_nat k = W - 1) by (unfold k; lia). clearbody k.
    assert (Hp : pos_ok t cap (Z.of_nat k)) by (rewrite Ek; split; left; unfold W; lia).
    destruct (rstart k [0; 2] [Give 2] Hp) as (b' & rs' & E & Zr & Hl & Hs & Hsc). rewrite Ek in Zr.
    destruct (zring_free _ _ Zr) as (ERL & _ & EWS & _).
    destruct (EWS (umax t) U) as (w & EW & LW). rewrite Z.min_r in LW by lia.
    destruct (zslip (br_ring b') (umax t) Hx Zr) as (Hcap & r1 & r2 & r3 & r4 & E1 & E2 & E3 & E4 & E5 & E6 & E7 & _); [unfold umax; lia|].
    set (s' := {| rs_src := []; rs_script := []; rs_asked := rs_asked (br_src b') ++ [cap] |}).
    assert (EF : br_fill_buf t b' = ({| br_ring := r2; br_src := s'; br_lowat := br_lowat b' |}, Ret [0; 2])).
    { unfold br_fill_buf. rewrite ERL. cbn [sbind]. rewrite Hl. change (0 <=? 0) with true. cbv iota.
      rewrite EW. cbn [sbind]. rewrite LW. unfold src_read. rewrite Hsc, Hs. cbv beta iota zeta.
      assert (T1 : @ztake byte (Z.min 2 cap) [0; 2] = [0; 2]) by (rewrite Z.min_l by lia; reflexivity).
      rewrite T1. change (@zlen byte [0; 2]) with 2. change (@zdrop byte 2 [0; 2]) with (@nil byte). fold s'.
      cbn [br_with_src br_ring br_src br_lowat]. rewrite E1. cbn [on_ring sbind br_with_ring br_ring br_src br_lowat br_with_src].
      rewrite E2. cbn [on_ring sbind br_with_ring br_ring br_src br_lowat br_with_src]. unfold br_buffer, br_with_ring, br_with_src. cbn [br_ring br_src br_lowat].
      rewrite E4, Hl. reflexivity. }
    do 6 eexists. split; [split; [|split; [|exists (fun _ => 0); rewrite (E [BFill; BConsume 1]); cbn [br_run br_step];
      rewrite EF; cbn [obind]; unfold br_buffer, br_consume; cbn [br_ring];
      rewrite E4, E5; cbn [on_ring]; unfold br_with_ring; cbn [br_ring br_src br_lowat]; reflexivity]]|].
    - apply Forall_app. split; [apply Forall_repeat; exact Logic.I|repeat constructor].
    - apply Forall_app. split; [apply rturns_ok|]. constructor; [exact Logic.I|]. constructor; [cbn; unfold is_usize; lia|constructor].
    - intros (bf & EB & EQ). unfold br_buffer in EB. cbn [br_ring br_src s' rs_src] in EB, EQ. rewrite E7 in EB. injection EB as <-.
      change (ztake 1 [0; 2]) with [0] in EQ. rewrite <- app_assoc in EQ. apply app_inv_head in EQ. discriminate EQ.
  Qed.

  (** The counter overflows in a build that checks: the bytes just taken from
      the source are lost. *)
  Lemma reader_overflows : exact_positions t cap -> t_checks t = true -> exists src script os b d rs,
    br_history t cap src script os b d rs /\ ~ keeps_stream t src b d.
  Proof.
    intros Hx Hck. pose proof (word_pos t Hb) as WP. pose proof (word_le t Hb) as WL. pose proof umax_cap as [U1 U].
    set (k := Z.to_nat (2 ^ 64 - 1)). assert (Ek : Z.of_nat k = 2 ^ 64 - 1) by (unfold k; lia). clearbody k.
    assert (Hp : pos_ok t cap (Z.of_nat k)) by (rewrite Ek; apply (exact_pos t cap); [exact Hx|left; lia]).
    destruct (rstart k [1] [Give 1] Hp) as (b' & rs' & E & Zr & Hl & Hs & Hsc). rewrite Ek in Zr.
    destruct (zring_free _ _ Zr) as (ERL & _ & EWS & ERS).
    destruct (EWS (umax t) U) as (w & EW & LW). rewrite Z.min_r in LW by lia.
    pose proof Zr as (I & L & _).
    destruct (store_mem _ _ _ (umax t) [1] I U) as (r1 & E1 & I1 & L1 & _ & D1 & _); [change (zlen [1]) with 1; lia|].
    pose proof (feed_over t Hg _ _ _ 1 I1 ltac:(lia) Hck ltac:(lia)) as E2.
    set (s' := {| rs_src := []; rs_script := []; rs_asked := rs_asked (br_src b') ++ [cap] |}).
    assert (EF : br_fill_buf t b' = ({| br_ring := r1; br_src := s'; br_lowat := br_lowat b' |}, Panic)).
    { unfold br_fill_buf. rewrite ERL. cbn [sbind]. rewrite Hl. change (0 <=? 0) with true. cbv iota.
      rewrite EW. cbn [sbind]. rewrite LW. unfold src_read. rewrite Hsc, Hs. cbv beta iota zeta.
      assert (T1 : @ztake byte (Z.min 1 cap) [1] = [1]) by (rewrite Z.min_l by lia; reflexivity).
      rewrite T1. change (@zlen byte [1]) with 1. change (@zdrop byte 1 [1]) with (@nil byte). fold s'.
      cbn [br_with_src br_ring br_src br_lowat]. rewrite E1. cbn [on_ring sbind br_with_ring br_ring br_src br_lowat br_with_src].
      rewrite E2. unfold br_with_ring, br_with_src. cbn [on_ring sbind br_ring br_src br_lowat]. rewrite Hl. reflexivity. }
    do 6 eexists. split; [split; [|split; [|exists (fun _ => 0); rewrite (E [BFill]); cbn [br_run br_step];
      rewrite EF; cbn [obind]; reflexivity]]|].
    - apply Forall_app. split; [apply Forall_repeat; exact Logic.I|repeat constructor].
    - apply Forall_app. split; [apply rturns_ok|]. constructor; [exact Logic.I|constructor].
    - intros (bf & EB & EQ). unfold br_buffer in EB. cbn [br_ring br_src s' rs_src] in EB, EQ.
      rewrite (read_slice_eq t Hb _ _ _ I1) in EB by exact U. rewrite D1 in EB. cbn [absq q_data] in EB.
      rewrite view_0 in EB by lia. unfold ztake in EB. rewrite firstn_nil in EB. injection EB as <-.
      cbn [app] in EQ. rewrite !app_nil_r in EQ. apply (f_equal (@length byte)) in EQ. rewrite app_length, !repeat_length in EQ. cbn [length] in EQ. lia.
  Qed.

  Lemma stream_iff :
    ((cap | 2 ^ t_bits t) /\ t_checks t = false) <->
    (forall src script os b d rs, br_history t cap src script os b d rs -> keeps_stream t src b d).
  Proof.
    split.
    - intros [Hd Hck] src script os b d rs (Hh & Ho & m & E).
      assert (R : br_reached t cap src script os b d rs).
      { split; [exact Hc|]. split; [exact Hw|]. split; [split; right; assumption|]. split; [exact Hh|]. split; [exact Ho|].
        exists m. exact E. }
      apply (stream_claim t Hg) in R. apply R.
    - intros A. destruct (exact_dec t cap) as [X|X].
      + destruct (t_checks t) eqn:Hck.
        * exfalso. destruct (reader_overflows X Hck) as (src & script & os & b & d & rs & H & N). exact (N (A _ _ _ _ _ _ H)).
        * split; [|reflexivity]. destruct X as [X|[_ X]]; [exact X|congruence].
      + exfalso. destruct (reader_slips X) as (src & script & os & b & d & rs & H & N). exact (N (A _ _ _ _ _ _ H)).
  Qed.
End Z.

(** ** The writer *)
Section ZW.
  Variable t : target.
  Hypothesis Hg : good_target t.
  Let Hb : 32 <= t_bits t <= 64 := good_bits t Hg.
  Variable cap : Z.
  Hypothesis Hc : 0 < cap.
  Hypothesis Hw : 2 * cap < 2 ^ t_bits t.
  Let W := 2 ^ t_bits t.

  Lemma inexact_big : ~ exact_positions t cap -> 2 < cap.
  Proof.
    intros Hx. pose proof (word_pos t Hb) as WP.
    destruct (jump_split t Hg cap Hc Hx) as [_ Hs].
    destruct (Z.eq_dec cap 1) as [E|]; [rewrite E in Hs; lia|].
    destruct (Z.eq_dec cap 2) as [E|]; [|lia].
    exfalso. apply Hx. left. rewrite E. exists (2 ^ (t_bits t - 1)). rewrite Z.mul_comm, <- Z.pow_succ_r by lia. f_equal. lia.
  Qed.

  Fixpoint wturns (k : nat) : list bwop := match k with O => [] | S k' => [WWrite [0]; WFlush] ++ wturns k' end.
  Fixpoint wscript (k : nat) (sc : list wanswer) : list wanswer :=
    match k with O => sc | S k' => Take 1 :: Take 0 :: wscript k' sc end.

  (** An empty writer at position [x]. *)
  Definition zwriter (x : Z) (b : bufwriter) (sc : list wanswer) : Prop :=
    zring t cap x (bw_ring b) /\ ws_script (bw_sink b) = sc /\ bw_panicked b = false /\
    last_write_panicked (bw_sink b) = false.

  (** A write that fits goes to the ring. *)
  Lemma write_fits x b sc buf r1 r2 : zwriter x b sc -> zlen buf < cap ->
    ring_slice_store t (bw_ring b) (zlen buf) 0 buf = Ret r1 -> ring_feed t r1 (zlen buf) = Ret r2 ->
    bw_write t b buf = ({| bw_ring := r2; bw_sink := bw_sink b; bw_panicked := bw_panicked b |}, Ret (zlen buf)).
  Proof.
    intros (Zr & _) Hl E1 E2. destruct (zring_free t Hg cap Hw _ _ Zr) as (_ & EWL & EWS & _).
    pose proof (zlen_nonneg buf) as Hn. destruct (EWS (zlen buf) Hn) as (w & EW & LW). rewrite Z.min_l in LW by lia.
    unfold bw_write. rewrite EWL. cbn [sbind]. destruct (Z.ltb_spec cap (zlen buf)); [lia|]. cbn [sbind].
    rewrite EWL. cbn [sbind]. destruct (Z.leb_spec cap (zlen buf)); [lia|].
    unfold ring_write. rewrite EW. cbn [obind]. rewrite LW, ztake_all by lia. rewrite E1. cbn [obind]. rewrite E2. reflexivity.
  Qed.

  (** One round of the flush loop over an inner writer that takes one byte. *)
  Lemma flush_one f b d0 d n r' sc : ring_read_len t (bw_ring b) = Ret n -> n <> 0 ->
    ring_read_slice t (bw_ring b) (umax t) = Ret (d0 :: d) -> ring_consume t (bw_ring b) 1 = Ret r' ->
    ws_script (bw_sink b) = Take 1 :: sc ->
    bw_flush_loop t (S f) b = bw_flush_loop t f {| bw_ring := r';
      bw_sink := {| ws_log := ws_log (bw_sink b) ++ [Wrote [d0]]; ws_script := sc;
                    ws_calls := ws_calls (bw_sink b) ++ [(d0 :: d, Take 1)] |}; bw_panicked := false |}.
  Proof.
    intros E1 Hn E2 E3 E4. cbn [bw_flush_loop]. unfold ring_is_empty. rewrite E1. cbn [obind sbind].
    destruct (Z.eqb_spec n 0); [contradiction|]. unfold bw_buffer. rewrite E2. cbn [sbind].
    unfold bw_inner_write, sink_write. rewrite E4. cbv beta iota zeta.
    change (ztake 1 (d0 :: d)) with [d0]. change (zlen [d0] =? 0) with false. cbv iota. cbn [bw_ring bw_sink bw_panicked].
    change (zlen [d0]) with 1. rewrite E3. reflexivity.
  Qed.
  Lemma flush_none f b : ring_read_len t (bw_ring b) = Ret 0 -> bw_flush_loop t (S f) b = (b, Ret tt).
  Proof. intros E. cbn [bw_flush_loop]. unfold ring_is_empty. rewrite E. reflexivity. Qed.

  Lemma last_take l x k : last_write_panicked {| ws_log := fst l; ws_script := snd l; ws_calls := x ++ [k] |} =
    match snd k with WBoom => true | _ => false end.
  Proof. unfold last_write_panicked. cbn [ws_calls]. rewrite rev_app_distr. cbn [rev app]. destruct k as [? []]; reflexivity. Qed.

  Lemma write_turn x b sc : 1 < cap -> zwriter x b (Take 1 :: Take 0 :: sc) -> pos_ok t cap (x + 1) ->
    exists b', (forall os, bw_run t b (WWrite [0] :: WFlush :: os) =
        let '(b2, d, rs) := bw_run t b' os in (b2, 0 :: d, Ret tt :: Ret tt :: rs)) /\
      (forall os, never_fits t b' os -> never_fits t b (WWrite [0] :: WFlush :: os)) /\
      zwriter (x + 1) b' sc /\ accepted (bw_sink b') = accepted (bw_sink b) ++ [0].
  Proof.
    intros H1 ZW Hp. pose proof ZW as (Zr & Hs & Hpn & Hlp).
    destruct (zturn t Hg cap Hc Hw x (bw_ring b) 1 Zr Hp ltac:(lia)) as (r1 & r2 & r3 & E1 & E2 & E3 & E4 & E5 & Z3).
    pose proof (write_fits x b _ [0] r1 r2 ZW ltac:(change (zlen [0]) with 1; lia) E1 E2) as EW.
    change (zlen [0]) with 1 in EW. destruct (zring_free t Hg cap Hw _ _ Z3) as (ERL & _).
    exists {| bw_ring := r3; bw_sink := {| ws_log := (ws_log (bw_sink b) ++ [Wrote [0]]) ++ [Flushed]; ws_script := sc;
                ws_calls := ws_calls (bw_sink b) ++ [([0], Take 1)] |}; bw_panicked := false |}.
    set (b' := Build_bufwriter r3 _ false). set (b1 := Build_bufwriter r2 (bw_sink b) (bw_panicked b)) in EW.
    assert (S1 : bw_step t b (WWrite [0]) = (b1, [0], Ret tt)) by (cbn [bw_step]; rewrite EW; reflexivity).
    assert (S2 : bw_step t b1 WFlush = (b', [], Ret tt)).
    { cbn [bw_step]. unfold bw_flush, bw_flush_buf. cbn [b1 bw_sink]. rewrite Hs. cbn [length].
      rewrite (flush_one _ b1 0 [] 1 r3 (Take 0 :: sc)) by (cbn [b1 bw_ring bw_sink]; assumption || discriminate).
      rewrite flush_none by (cbn [bw_ring]; exact ERL). reflexivity. }
    split; [|split; [|split]].
    - intros os. cbn [bw_run]. rewrite S1, S2. destruct (bw_run t b' os) as [[b2 d2] rs2]. reflexivity.
    - intros os N. cbn [never_fits]. rewrite S1. cbn [fst]. rewrite S2. cbn [fst]. split; [|split; [|exact N]].
      + intros buf _. unfold bw_buffer. destruct (zring_free t Hg cap Hw _ _ Zr) as (_ & _ & _ & ->). left. reflexivity.
      + intros buf [X|X]; discriminate X.
    - split; [exact Z3|]. split; [reflexivity|]. split; [reflexivity|]. apply (last_take (_, _)).
    - unfold accepted, b'. cbn [bw_sink ws_log]. rewrite !flat_map_app. cbn [flat_map event_bytes app]. apply app_nil_r.
  Qed.

  Lemma wturns_run k : forall x b sc, 1 < cap -> zwriter x b (wscript k sc) -> pos_ok t cap (x + Z.of_nat k) ->
    exists b' rs', (forall os, bw_run t b (wturns k ++ os) =
        let '(b2, d, rs) := bw_run t b' os in (b2, repeat 0 k ++ d, rs' ++ rs)) /\ ~ In Blocked rs' /\
      (forall os, never_fits t b' os -> never_fits t b (wturns k ++ os)) /\
      zwriter (x + Z.of_nat k) b' sc /\ accepted (bw_sink b') = accepted (bw_sink b) ++ repeat 0 k.
  Proof.
    induction k as [|k IH]; intros x b sc H1 ZW Hp.
    - exists b, []. cbn [wturns app repeat]. rewrite Z.add_0_r, app_nil_r. split; [|auto].
      intros os. destruct (bw_run t b os) as [[b2 d2] rs2]. reflexivity.
    - rewrite Nat2Z.inj_succ in Hp. cbn [wscript] in ZW.
      destruct (write_turn x b _ H1 ZW (pos_ok_le t Hb cap (x + 1) _ Hp ltac:(lia))) as (b1 & E1 & F1 & Z1 & A1).
      destruct (IH (x + 1) b1 sc H1 Z1) as (b2 & rs2 & E2 & N2 & F2 & Z2 & A2); [eapply (pos_ok_le t Hb); [exact Hp|lia]|].
      exists b2, (Ret tt :: Ret tt :: rs2). split.
      + intros os. cbn [wturns app]. rewrite E1, E2. destruct (bw_run t b2 os) as [[b3 d3] rs3]. reflexivity.
      + split; [intros [X|[X|X]]; [discriminate X|discriminate X|exact (N2 X)]|].
        split; [intros os N; apply F1, F2, N|].
        rewrite Nat2Z.inj_succ. replace (x + Z.succ (Z.of_nat k)) with (x + 1 + Z.of_nat k) by lia.
        split; [exact Z2|]. rewrite A2, A1, <- app_assoc. reflexivity.
  Qed.

  Lemma wscript_ok k sc : Forall whonest sc -> Forall whonest (wscript k sc).
  Proof. intros H. induction k; cbn [wscript]; [exact H|]. constructor; [exact Logic.I|]. constructor; [exact Logic.I|exact IHk]. Qed.

  (** Two bytes are buffered across the end of the word; flushing them one by
      one hands over something else. *)
  Lemma writer_slips : ~ exact_positions t cap -> exists k script os b b' rs,
    (forall os', bw_run t (bw_from_parts (fresh_sink script) (ring_make cap (fun _ => 0))) (os ++ os') =
      let '(b2, d, rs') := bw_run t b os' in (b2, (repeat 0 k ++ [0; 2]) ++ d, rs ++ rs')) /\
    (forall os', never_fits t b os' -> never_fits t (bw_from_parts (fresh_sink script) (ring_make cap (fun _ => 0))) (os ++ os')) /\
    Forall whonest script /\ ~ In Blocked rs /\ accepted (bw_sink b) = repeat 0 k /\ bw_buffer t b = Ret [0; 2] /\
    ws_script (bw_sink b) = [Take 1; Take 1; Take 1] /\
    bw_panicked b = false /\ last_write_panicked (bw_sink b) = false /\
    bw_flush_buf t b = (b', Ret tt) /\ accepted (bw_sink b') = repeat 0 k ++ [0; 0] /\ bw_buffer t b' = Ret [] /\
    ws_script (bw_sink b') = [Take 1].
  Proof.
    intros Hx. pose proof (word_pos t Hb) as WP. pose proof (word_le t Hb) as WL. pose proof (inexact_big Hx) as Hbig.
    set (k := Z.to_nat (W - 1)). assert (Ek : Z.of_nat k = W - 1) by (unfold k, W; lia). clearbody k.
    assert (Hp : pos_ok t cap (Z.of_nat k)) by (rewrite Ek; split; left; unfold W; lia).
    destruct (wturns_run k 0 (bw_from_parts (fresh_sink (wscript k [Take 1; Take 1; Take 1])) (ring_make cap (fun _ => 0))) [Take 1; Take 1; Take 1])
      as (b & rs & E & N & F & ZW & A); [lia|split; [apply zmake; assumption|repeat split]|exact Hp|].
    rewrite Z.add_0_l, Ek in ZW. pose proof ZW as (Zr & Hs & Hpn & Hlp).
    destruct (zslip t Hg cap Hc Hw (bw_ring b) 2 Hx Zr ltac:(lia)) as (_ & r1 & r2 & r3 & r4 & E1 & E2 & E3 & E4 & E5 & E6 & E7 & E8 & E9 & E10).
    pose proof (write_fits _ b _ [0; 2] r1 r2 ZW ltac:(change (zlen [0; 2]) with 2; lia) E1 E2) as EW.
    change (zlen [0; 2]) with 2 in EW.
    exists k, (wscript k [Take 1; Take 1; Take 1]), (wturns k ++ [WWrite [0; 2]]), {| bw_ring := r2; bw_sink := bw_sink b; bw_panicked := bw_panicked b |}.
    eexists. exists (rs ++ [Ret tt]).
    split; [|split; [|split; [apply wscript_ok; repeat constructor|]]].
    { intros os'. rewrite <- app_assoc, E. cbn [app bw_run bw_step]. rewrite EW. cbn [obind]. change (ztake 2 [0; 2]) with [0; 2].
      match goal with |- context[bw_run t ?b' os'] => destruct (bw_run t b' os') as [[b2 d2] rs2] end.
      rewrite <- !app_assoc. reflexivity. }
    { intros os' N'. rewrite <- app_assoc. apply F. cbn [app never_fits]. cbn [bw_step]. rewrite EW. cbn [fst]. split; [|exact N'].
      intros buf _. unfold bw_buffer. destruct (zring_free t Hg cap Hw _ _ Zr) as (_ & _ & _ & ->). left. reflexivity. }
    split; [intros X; apply in_app_or in X; destruct X as [X|[X|[]]]; [exact (N X)|discriminate X]|].
    cbn [bw_sink bw_panicked]. split; [exact A|]. split; [exact E4|]. split; [exact Hs|]. split; [exact Hpn|]. split; [exact Hlp|].
    split.
    { unfold bw_flush_buf. cbn [bw_sink]. rewrite Hs. cbn [length].
      rewrite (flush_one _ _ 0 [2] 2 r3 [Take 1; Take 1]) by (cbn [bw_ring bw_sink]; assumption || discriminate).
      rewrite (flush_one _ _ 0 [] 1 r4 [Take 1]) by (cbn [bw_ring bw_sink ws_script]; assumption || discriminate || reflexivity).
      apply flush_none. exact E9. }
    split.
    { unfold accepted. cbn [bw_sink ws_log]. rewrite !flat_map_app. fold (accepted (bw_sink b)). rewrite A. rewrite <- app_assoc. reflexivity. }
    split; [exact E10|reflexivity].
  Qed.

  (** ** The laws *)
  Lemma history_ok r0 script os b told rs : exact_positions t cap -> bw_history t cap r0 script os b told rs ->
    exists os0, bw_ok t cap os0 r0 script os b told rs.
  Proof.
    intros Hx ((m & os0 & xs & Ho & E0) & Hh & E). exists os0. right. split; [|auto].
    split; [exact Hc|]. split; [exact Hw|]. split; [exact Hx|]. split; [exact Ho|]. exists m, xs. exact E0.
  Qed.

  Lemma fresh_history script os b told rs : Forall whonest script ->
    bw_run t (bw_from_parts (fresh_sink script) (ring_make cap (fun _ => 0))) os = (b, told, rs) ->
    bw_history t cap (ring_make cap (fun _ => 0)) script os b told rs.
  Proof. intros H E. split; [|auto]. exists (fun _ => 0), [], []. split; [constructor|reflexivity]. Qed.

  Lemma fresh_empty : ring_read_slice t (ring_make cap (fun _ => 0)) (umax t) = Ret [].
  Proof. apply (zring_free t Hg cap Hw 0), zmake; assumption. Qed.

  (** The two flushed bytes. *)
  Lemma flushed b b' : bw_flush_buf t b = (b', Ret tt) -> ws_script (bw_sink b') = [Take 1] ->
    exists b2, bw_flush t b = (b2, Ret tt) /\ bw_buffer t b2 = bw_buffer t b' /\ accepted (bw_sink b2) = accepted (bw_sink b').
  Proof.
    intros E S. unfold bw_flush. rewrite E. cbn [sbind]. unfold sink_flush. rewrite S. eexists. split; [reflexivity|].
    split; [reflexivity|]. unfold accepted. cbn [bw_sink ws_log]. rewrite flat_map_app. cbn [flat_map event_bytes app]. apply app_nil_r.
  Qed.

  (** A history that hands over a byte nobody wrote. *)
  Lemma wrong_bytes : ~ exact_positions t cap -> exists k script os b rs,
    bw_history t cap (ring_make cap (fun _ => 0)) script os b (repeat 0 k ++ [0; 2]) rs /\
    never_fits t (bw_from_parts (fresh_sink script) (ring_make cap (fun _ => 0))) os /\
    accepted (bw_sink b) = repeat 0 k ++ [0; 0] /\ bw_buffer t b = Ret [].
  Proof.
    intros Hx. destruct (writer_slips Hx) as (k & script & os & b & b' & rs & E & F & Hh & _ & A & B & S & _ & _ & EF & A' & B' & S').
    destruct (flushed _ _ EF S') as (b2 & E2 & B2 & A2).
    exists k, script, (os ++ [WFlush]), b2, (rs ++ [Ret tt]). split; [apply fresh_history; [exact Hh|]|].
    - rewrite E. cbn [bw_run bw_step]. rewrite E2. cbn [app]. rewrite app_nil_r. reflexivity.
    - split; [apply F; cbn [never_fits]; split; [intros ? [X|X]; discriminate X|exact Logic.I]|].
      rewrite A2, B2. auto.
  Qed.

  Lemma conserve_iff : exact_positions t cap <->
    (forall r0 script os b told rs, bw_history t cap r0 script os b told rs -> conserves t r0 b told).
  Proof.
    split.
    - intros Hx r0 script os b told rs H. destruct (history_ok _ _ _ _ _ _ Hx H) as (os0 & K).
      destruct (conserve_claim t Hg _ _ _ _ _ _ _ _ K) as (_ & _ & d0 & d & E0 & E1 & P & _). exists d0, d. auto.
    - intros A. destruct (exact_dec t cap) as [X|X]; [exact X|exfalso].
      destruct (wrong_bytes X) as (k & script & os & b & rs & H & _ & Acc & B).
      destruct (A _ _ _ _ _ _ H) as (d0 & d & E0 & E1 & P). rewrite fresh_empty in E0. rewrite B in E1.
      injection E0 as <-. injection E1 as <-. cbn [app] in P. rewrite Acc, app_nil_r in P.
      apply Permutation_app_inv_l in P. apply (Permutation_in 2) in P; [|right; left; reflexivity].
      destruct P as [P|[P|[]]]; discriminate P.
  Qed.

  Lemma order_iff : exact_positions t cap <->
    (forall r0 script os b told rs, bw_history t cap r0 script os b told rs ->
       never_fits t (bw_from_parts (fresh_sink script) r0) os -> keeps_order t r0 b told).
  Proof.
    split.
    - intros Hx r0 script os b told rs H N. destruct (history_ok _ _ _ _ _ _ Hx H) as (os0 & K).
      destruct (conserve_claim t Hg _ _ _ _ _ _ _ _ K) as (_ & _ & d0 & d & E0 & E1 & _ & O). exists d0, d. auto.
    - intros A. destruct (exact_dec t cap) as [X|X]; [exact X|exfalso].
      destruct (wrong_bytes X) as (k & script & os & b & rs & H & N & Acc & B).
      destruct (A _ _ _ _ _ _ H N) as (d0 & d & E0 & E1 & P). rewrite fresh_empty in E0. rewrite B in E1.
      injection E0 as <-. injection E1 as <-. cbn [app] in P. rewrite Acc, app_nil_r in P.
      apply app_inv_head in P. discriminate P.
  Qed.

  (** A writer about to hand over a byte nobody wrote. *)
  Lemma wrong_state : ~ exact_positions t cap -> exists k script os b b' rs,
    bw_history t cap (ring_make cap (fun _ => 0)) script os b (repeat 0 k ++ [0; 2]) rs /\ ~ In Blocked rs /\
    accepted (bw_sink b) = repeat 0 k /\ bw_buffer t b = Ret [0; 2] /\ ws_script (bw_sink b) = [Take 1; Take 1; Take 1] /\
    bw_panicked b = false /\ last_write_panicked (bw_sink b) = false /\
    bw_flush_buf t b = (b', Ret tt) /\ accepted (bw_sink b') = repeat 0 k ++ [0; 0] /\ bw_buffer t b' = Ret [] /\
    ws_script (bw_sink b') = [Take 1].
  Proof.
    intros Hx. destruct (writer_slips Hx) as (k & script & os & b & b' & rs & E & _ & Hh & Rest).
    exists k, script, os, b, b', rs. split; [|exact Rest]. apply fresh_history; [exact Hh|].
    rewrite <- (app_nil_r os), E. cbn [bw_run]. rewrite !app_nil_r. reflexivity.
  Qed.

  Lemma flush_iff : exact_positions t cap <->
    (forall r0 script os b told rs, bw_history t cap r0 script os b told rs -> flushes t b).
  Proof.
    split.
    - intros Hx r0 script os b told rs H b' r E. destruct (history_ok _ _ _ _ _ _ Hx H) as (os0 & K).
      destruct (flush_claim t Hg _ _ _ _ _ _ _ _ _ _ K E) as (d & d' & E0 & E1 & A & M). exists d, d'.
      do 3 (split; [assumption|]). intros ->. apply M.
    - intros A. destruct (exact_dec t cap) as [X|X]; [exact X|exfalso].
      destruct (wrong_state X) as (k & script & os & b & b' & rs & H & _ & Acc & B & S & _ & _ & EF & A' & B' & S').
      destruct (flushed _ _ EF S') as (b2 & E2 & B2 & A2).
      destruct (A _ _ _ _ _ _ H _ _ E2) as (d & d' & E0 & E1 & Q & _). rewrite B in E0. rewrite B2, B' in E1.
      injection E0 as <-. injection E1 as <-. rewrite A2, A', Acc, app_nil_r in Q. apply app_inv_head in Q. discriminate Q.
  Qed.

  Lemma into_inner_iff : exact_positions t cap <->
    (forall r0 script os b told rs, bw_history t cap r0 script os b told rs -> hands_over t b).
  Proof.
    split.
    - intros Hx r0 script os b told rs H. destruct (history_ok _ _ _ _ _ _ Hx H) as (os0 & K).
      destruct (into_inner_claim t Hg _ _ _ _ _ _ _ _ K) as (d & E & M). exists d. split; [exact E|].
      destruct (bw_into_inner t b) as [s|b' e|s r]; [exact M| |apply M].
      destruct M as (d' & pre & E1 & _ & Q & _). exists d'. auto.
    - intros A. destruct (exact_dec t cap) as [X|X]; [exact X|exfalso].
      destruct (wrong_state X) as (k & script & os & b & b' & rs & H & _ & Acc & B & S & _ & _ & EF & A' & B' & S').
      destruct (A _ _ _ _ _ _ H) as (d & E0 & Q). rewrite B in E0. injection E0 as <-.
      unfold bw_into_inner in Q. rewrite EF in Q. cbn [bw_into_parts fst] in Q. rewrite A', Acc in Q.
      apply app_inv_head in Q. discriminate Q.
  Qed.

  Lemma drop_iff : exact_positions t cap <->
    (forall r0 script os b told rs, bw_history t cap r0 script os b told rs -> ~ In Blocked rs -> drops_well t b).
  Proof.
    split.
    - intros Hx r0 script os b told rs H N s r L E. destruct (history_ok _ _ _ _ _ _ Hx H) as (os0 & K).
      destruct (drop_claim t Hg _ _ _ _ _ _ _ _ _ _ K N L E) as (d & p & rest & pre & E0 & E1 & A & _ & _ & Wl).
      exists d, p, rest. do 3 (split; [assumption|]). intros F. destruct (Wl F) as [[_ Y]|Y]; auto.
    - intros A. destruct (exact_dec t cap) as [X|X]; [exact X|exfalso].
      destruct (wrong_state X) as (k & script & os & b & b' & rs & H & N & Acc & B & S & P & L & EF & A' & B' & S').
      assert (E : bw_drop t b = (bw_sink b', Ret tt)) by (unfold bw_drop; rewrite P, EF; reflexivity).
      destruct (A _ _ _ _ _ _ H N _ _ L E) as (d & p & rest & E0 & E1 & Q & _). rewrite B in E0. injection E0 as <-.
      rewrite A', Acc in Q. apply app_inv_head in Q. subst p. discriminate E1.
  Qed.
End ZW.

(** ** The panic flag, for every ring and every inner writer *)
Section Flag.
  Variable t : target.
  Hypothesis Hg : good_target t.
  Let Hb : 32 <= t_bits t <= 64 := good_bits t Hg.

  Lemma flag_inner b buf b' r : bw_inner_write b buf = (b', r) -> r <> Blocked -> flag_ok b'.
  Proof.
    unfold bw_inner_write, sink_write. destruct (ws_script (bw_sink b)) as [|a rest].
    - intros X N. injection X as <- <-. contradiction.
    - intros X _. unfold flag_ok.
      destruct a; injection X as <- <-; cbn [bw_panicked bw_sink]; symmetry; apply (last_take (_, _)).
  Qed.

  Lemma flag_flush fuel : forall b b' r, flag_ok b -> bw_flush_loop t fuel b = (b', r) -> r <> Blocked -> flag_ok b'.
  Proof.
    induction fuel as [|f IH]; intros b b' r F E N.
    - cbn in E. injection E as <- <-. contradiction.
    - cbn [bw_flush_loop] in E. destruct (ring_is_empty t (bw_ring b)) as [e|e| | |]; cbn [sbind] in E;
        try (injection E as <- <-; exact F).
      destruct e; [injection E as <- <-; exact F|].
      destruct (bw_buffer t b) as [d|e| | |]; cbn [sbind] in E; try (injection E as <- <-; exact F).
      destruct (bw_inner_write b d) as [b1 r1] eqn:E1.
      destruct r1 as [n|e| | |].
      + pose proof (flag_inner _ _ _ _ E1 ltac:(discriminate)) as F1.
        destruct (n =? 0); [injection E as <- <-; exact F1|].
        destruct (ring_consume t (bw_ring b1) n) as [r'|e| | |]; try (injection E as <- <-; exact F1).
        eapply IH; [|exact E|exact N]. exact F1.
      + pose proof (flag_inner _ _ _ _ E1 ltac:(discriminate)) as F1.
        destruct (io_kind_of e); try (injection E as <- <-; exact F1). eapply IH; [exact F1|exact E|exact N].
      + injection E as <- <-. eapply flag_inner; [exact E1|discriminate].
      + injection E as <- <-. eapply flag_inner; [exact E1|discriminate].
      + injection E as <- <-. contradiction.
  Qed.

  Lemma flag_write b buf b' r : flag_ok b -> bw_write t b buf = (b', r) -> r <> Blocked -> flag_ok b'.
  Proof.
    intros F E N. unfold bw_write in E.
    destruct (ring_write_len t (bw_ring b)) as [wl|e| | |]; cbn [sbind] in E; try (injection E as <- <-; exact F).
    assert (Tail : forall b0 b' r, flag_ok b0 ->
      sbind (b0, ring_write_len t (bw_ring b0)) (fun b wl' =>
        if wl' <=? zlen buf then bw_inner_write b buf
        else match ring_write t (bw_ring b) buf with
             | Ret (r', n) => ({| bw_ring := r'; bw_sink := bw_sink b; bw_panicked := bw_panicked b |}, Ret n)
             | Err e => (b, Err e) | Panic => (b, Panic) | Fault => (b, Fault) | Blocked => (b, Blocked)
             end) = (b', r) -> r <> Blocked -> flag_ok b').
    { clear. intros b0 b' r F E N.
      destruct (ring_write_len t (bw_ring b0)) as [wl|e| | |]; cbn [sbind] in E; try (injection E as <- <-; exact F).
      destruct (wl <=? zlen buf); [eapply flag_inner; [exact E|exact N]|].
      destruct (ring_write t (bw_ring b0) buf) as [[r' n]|e| | |]; injection E as <- <-; exact F. }
    destruct (wl <? zlen buf).
    - destruct (bw_flush_buf t b) as [b1 r1] eqn:E1.
      destruct r1 as [u|e| | |]; cbn [sbind] in E.
      + eapply Tail; [|exact E|exact N]. eapply flag_flush; [exact F|exact E1|discriminate].
      + injection E as <- <-. eapply flag_flush; [exact F|exact E1|discriminate].
      + injection E as <- <-. eapply flag_flush; [exact F|exact E1|discriminate].
      + injection E as <- <-. eapply flag_flush; [exact F|exact E1|discriminate].
      + injection E as <- <-. contradiction.
    - cbn [sbind] in E. eapply Tail; [exact F|exact E|exact N].
  Qed.

  Lemma flag_write_all fuel : forall b buf told b' d r, flag_ok b -> bw_write_all_loop t fuel b buf told = (b', d, r) ->
    r <> Blocked -> flag_ok b'.
  Proof.
    induction fuel as [|f IH]; intros b buf told b' d r F E N; cbn [bw_write_all_loop] in E.
    - destruct buf; injection E as <- _ <-; [exact F|contradiction].
    - destruct buf as [|c buf]; [injection E as <- _ <-; exact F|].
      destruct (bw_write t b (c :: buf)) as [b1 r1] eqn:E1.
      assert (F1 : r1 <> Blocked -> flag_ok b1) by (intros; eapply flag_write; eauto).
      destruct r1 as [n|e| | |].
      + specialize (F1 ltac:(discriminate)). destruct (n =? 0); [injection E as <- _ <-; exact F1|].
        destruct (_ <? _) in E; [injection E as <- _ <-; exact F1|]. eapply IH; [exact F1|exact E|exact N].
      + specialize (F1 ltac:(discriminate)).
        destruct (io_kind_of e); try (injection E as <- _ <-; exact F1). eapply IH; [exact F1|exact E|exact N].
      + injection E as <- _ <-. apply F1. discriminate.
      + injection E as <- _ <-. apply F1. discriminate.
      + injection E as <- _ <-. contradiction.
  Qed.

  Lemma flag_step b o b' d r : flag_ok b -> bw_step t b o = (b', d, r) -> r <> Blocked -> flag_ok b'.
  Proof.
    intros F E N. destruct o as [buf|buf|]; cbn [bw_step] in E.
    - destruct (bw_write t b buf) as [b1 r1] eqn:E1. injection E as <- _ <-. eapply flag_write; [exact F|exact E1|].
      intros ->. apply N. reflexivity.
    - eapply flag_write_all; [exact F|exact E|exact N].
    - destruct (bw_flush t b) as [b1 r1] eqn:E1. injection E as <- _ <-. unfold bw_flush in E1.
      destruct (bw_flush_buf t b) as [b2 r2] eqn:E2.
      assert (F2 : r2 <> Blocked -> flag_ok b2) by (intros; eapply flag_flush; eauto).
      destruct r2 as [u|e| | |]; cbn [sbind] in E1.
      + specialize (F2 ltac:(discriminate)). destruct (sink_flush (bw_sink b2)) as [s' r'] eqn:Es. injection E1 as <- <-.
        unfold flag_ok in *. cbn [bw_panicked bw_sink]. rewrite F2. unfold sink_flush in Es.
        destruct (ws_script (bw_sink b2)) as [|a rest]; [injection Es as <- <-; reflexivity|].
        destruct a; injection Es as <- <-; reflexivity.
      + injection E1 as <- <-. apply F2. discriminate.
      + injection E1 as <- <-. apply F2. discriminate.
      + injection E1 as <- <-. apply F2. discriminate.
      + injection E1 as <- <-. contradiction.
  Qed.

  Lemma flag_run os : forall b b' d rs, flag_ok b -> bw_run t b os = (b', d, rs) -> ~ In Blocked rs -> flag_ok b'.
  Proof.
    induction os as [|o os IH]; intros b b' d rs F E N; cbn [bw_run] in E.
    - injection E as <- _ _. exact F.
    - destruct (bw_step t b o) as [[b1 d1] r1] eqn:E1.
      assert (F1 : r1 <> Blocked -> flag_ok b1) by (intros; eapply flag_step; eauto).
      destruct r1 as [u|e| | |].
      1-3: destruct (bw_run t b1 os) as [[b2 d2] rs2] eqn:E2; injection E as <- _ <-;
        (eapply IH; [apply F1; discriminate|exact E2|intros X; apply N; right; exact X]).
      + injection E as <- _ <-. apply F1. discriminate.
      + injection E as <- _ <-. exfalso. apply N. left. reflexivity.
  Qed.

  Lemma every_good cap r0 script os b told rs : 0 < cap -> 2 * cap < 2 ^ t_bits t ->
    bw_every t cap r0 script os b told rs -> wgood t cap b /\ Forall (fun r => r <> Fault) rs /\ (~ In Blocked rs -> flag_ok b).
  Proof.
    intros Hc Hw ((m & os0 & xs & Ho & E0) & Hs & E).
    pose proof (w_run t Hb os0 (ring_make cap m) 0 (w_make t Hb cap m Hc ltac:(lia)) Ho) as Fi. rewrite E0 in Fi.
    cbn [fine fst ring_make r_len] in Fi. destruct Fi as [Iv L].
    destruct (bw_run_weak t Hb cap os (bw_from_parts (fresh_sink script) r0) b told rs) as (G & F); [|exact E|].
    - split; [exact Iv|]. split; [exact L|exact Hs].
    - split; [exact G|]. split; [exact F|]. eapply flag_run; [|exact E]. reflexivity.
  Qed.

  Lemma good_buffer cap b : wgood t cap b -> exists data wl, bw_buffer t b = Ret data /\
    ring_write_len t (bw_ring b) = Ret wl /\ 0 <= wl /\ zlen data + wl = cap.
  Proof.
    intros ([d I] & L & _). pose proof (umax_nonneg t Hb) as Hu.
    destruct (w_read_slice t Hb _ _ (umax t) I Hu) as (s & Es & Ls). exists s, (cap - d). split; [exact Es|].
    rewrite (w_write_len t Hb _ _ I), L. destruct I. unfold umax in Ls. split; [reflexivity|]. split; lia.
  Qed.

  Lemma parts_any cap r0 script os b told rs : 0 < cap -> 2 * cap < 2 ^ t_bits t ->
    bw_every t cap r0 script os b told rs -> ~ In Blocked rs ->
    exists data, bw_buffer t b = Ret data /\
      let '(s, (r, panicked)) := bw_into_parts b in
      s = bw_sink b /\ ring_read_slice t r (umax t) = Ret data /\
      panicked = last_write_panicked (bw_sink b) /\
      (last_write_panicked (bw_sink b) = true -> bw_drop t b = (bw_sink b, Ret tt)).
  Proof.
    intros Hc Hw H N. destruct (every_good _ _ _ _ _ _ _ Hc Hw H) as (G & _ & F). specialize (F N).
    destruct (good_buffer _ _ G) as (d & wl & E & _). exists d. split; [exact E|]. cbn [bw_into_parts].
    split; [reflexivity|]. split; [exact E|]. split; [exact F|]. intros X. unfold bw_drop. unfold flag_ok in F. rewrite F, X. reflexivity.
  Qed.

  Lemma safe_any cap r0 script os b told rs : 0 < cap -> 2 * cap < 2 ^ t_bits t ->
    bw_every t cap r0 script os b told rs ->
    Forall (fun r => r <> Fault) rs /\
    (exists data wl, bw_buffer t b = Ret data /\ ring_write_len t (bw_ring b) = Ret wl /\ 0 <= wl /\ zlen data + wl = cap) /\
    snd (bw_drop t b) <> Fault.
  Proof.
    intros Hc Hw H. destruct (every_good _ _ _ _ _ _ _ Hc Hw H) as (G & F & _). split; [exact F|]. split.
    - eapply good_buffer, G.
    - destruct (bw_drop t b) as [s r] eqn:E. apply (drop_weak t Hb cap _ _ _ G E).
  Qed.
End Flag.
