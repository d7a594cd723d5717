(** The programs of BufProgModel.v over inner objects that break their
    contracts, histories of any length. *)
From Coq Require Import Lia.
From Verif Require Import Base ErrorModel RingSpec RingModel BufSpec BufModel SeqProofs SizeProofs RingProofs RingWeak BufWeak BufProgModel BufProgProofs.

Section Ev.
  Variable t : target.

  (** A code run against a ring that is a value: it ends with a value, or with
      the first ring call that panics. *)
  Inductive evalo {A} : ring -> code A -> option (ring * A) -> Prop :=
  | eo_pure r a : evalo r (Pure a) (Some (r, a))
  | eo_len r (w : bool) k n x : (if w then ring_write_len t r else ring_read_len t r) = Ret n -> evalo r (k n) x -> evalo r (Len w k) x
  | eo_do r o k r1 y x : rop_ok t o -> ring_step t r o = Ret (r1, y) -> evalo r1 (k y) x -> evalo r (Do o k) x
  | eo_bad r o k : rop_ok t o -> ring_step t r o = Panic -> evalo r (Do o k) None.

  Lemma evalo_bind {A B} r (c : code A) x : evalo r c x -> forall (f : A -> code B) y,
    match x with Some (r1, a) => evalo r1 (f a) y | None => y = None end -> evalo r (cbind c f) y.
  Proof.
    induction 1 as [r a|r w k n x L H IH|r o k r1 z x O E H IH|r o k O E]; intros f y K; cbn [cbind].
    - exact K.
    - eapply eo_len; [exact L|]. apply IH, K.
    - eapply eo_do; [exact O|exact E|]. apply IH, K.
    - subst y. apply eo_bad; assumption.
  Qed.
  (** [bad]: what is to be known when a ring call panics. *)
  Definition ends {A} (r : ring) (c : code A) (r' : ring) (a : A) (bad : Prop) : Prop :=
    evalo r c (Some (r', a)) \/ (evalo r c None /\ bad).
  Lemma ends_pure {A} r (a : A) bad : ends r (Pure a) r a bad.
  Proof. left. constructor. Qed.
  Lemma ends_bind {A B} r (c : code A) r1 a (bad : Prop) (f : A -> code B) r2 b (bad2 : Prop) : ends r c r1 a bad -> (bad -> bad2) -> ends r1 (f a) r2 b bad2 ->
    ends r (cbind c f) r2 b bad2.
  Proof.
    intros [H|[H K]] I H2.
    - destruct H2 as [H2|[H2 K2]]; [left|right; split; [|exact K2]]; exact (evalo_bind _ _ _ H _ _ H2).
    - right. split; [|exact (I K)]. exact (evalo_bind _ _ _ H f None eq_refl).
  Qed.
  Lemma ends_len {A} r (w : bool) (k : Z -> code A) n r' a bad : (if w then ring_write_len t r else ring_read_len t r) = Ret n ->
    ends r (k n) r' a bad -> ends r (Len w k) r' a bad.
  Proof. intros L [H|[H K]]; [left|right; split; [|exact K]]; (eapply eo_len; [exact L|exact H]). Qed.
  Lemma ends_do {A} r o (k : rout -> code A) r1 y r' a bad : rop_ok t o -> ring_step t r o = Ret (r1, y) -> ends r1 (k y) r' a bad -> ends r (Do o k) r' a bad.
  Proof. intros O E [H|[H K]]; [left|right; split; [|exact K]]; (eapply eo_do; [exact O|exact E|exact H]). Qed.
  Lemma ends_bad {A} r o (k : rout -> code A) r' a (bad : Prop) : rop_ok t o -> ring_step t r o = Panic -> bad -> ends r (Do o k) r' a bad.
  Proof. intros O E K. right. split; [apply eo_bad; assumption|exact K]. Qed.
End Ev.

Section Weak.
  Variable t : target.
  Hypothesis Hbits : 32 <= t_bits t <= 64.
  Variable cap : Z.
  Hypothesis Hcap : 0 < cap.
  Hypothesis Hword : 2 * cap < 2 ^ t_bits t.
  Notation rgood := (rgood t cap).
  Notation wgood := (wgood t cap).
  Let Hu : is_usize t (umax t) := umax_ok t Hbits.
  Let Hu0 : 0 <= umax t := umax_nonneg t Hbits.

  Lemma store_fits r d max s w : winv t r d -> 0 <= max -> ring_write_slice t r max = Ret w -> zlen s <= zlen w -> ring_slice_store t r max 0 s <> Panic.
  Proof.
    intros I Hm E L. unfold ring_slice_store, ring_write_offset. rewrite (w_urem t r d _ I), E. cbn [obind].
    destruct (Z.leb_spec (0 + zlen s) (zlen w)) as [H|H]; [cbn; discriminate|lia].
  Qed.
  Lemma write_panics r d b : winv t r d -> ring_write t r b = Panic -> t_checks t = true.
  Proof.
    intros I E. pose proof (zlen_nonneg b) as Hb. unfold ring_write in E. destruct (w_write_slice t Hbits r d (zlen b) I Hb) as (s & Es & L). rewrite Es in E. cbn [obind] in E.
    pose proof (zlen_nonneg s) as Hs. assert (Lz : zlen (ztake (zlen s) b) <= zlen s) by (rewrite zlen_ztake by lia; lia).
    destruct (w_store t Hbits r d (zlen b) 0 (ztake (zlen s) b) I Hb) as [(r1 & E1 & I1 & _)|E1]; [|destruct (store_fits r d _ _ s I Hb Es Lz E1)].
    rewrite E1 in E. cbn [obind] in E. destruct (w_feed t Hbits r1 d (zlen s) I1 Hs) as [(r2 & E2 & _)|(_ & C & _)]; [rewrite E2 in E; discriminate E|exact C].
  Qed.
  Lemma src_usize n s s' d r : is_usize t n -> Forall (ranswer_ok t) (rs_script s) -> src_read n s = (s', d, Ret r) -> is_usize t r.
  Proof.
    unfold is_usize. intros Hn Hs. unfold src_read. destruct (rs_script s) as [|a rest] eqn:E; [discriminate|]. apply Forall_cons_iff in Hs as [Ha _].
    destruct a as [k|d0 k|d0 e|d0]; intros X; try discriminate X; injection X as <- <- <-; [|exact Ha].
    split; [apply zlen_nonneg|]. destruct (Z.le_gt_cases 0 (Z.min k n)); [rewrite zlen_ztake by lia; lia|rewrite ztake_neg by lia; change (zlen []) with 0; lia].
  Qed.
  Lemma low_fill b b' r : br_fill_buf t b = (b', r) -> br_lowat b' = br_lowat b.
  Proof.
    unfold br_fill_buf. destruct (ring_read_len t (br_ring b)) as [d|e| | |]; cbn [sbind]; try (intros [= <- <-]; reflexivity).
    destruct (d <=? br_lowat b); [|intros [= <- <-]; reflexivity].
    destruct (ring_write_slice t (br_ring b) (umax t)) as [w|e| | |]; cbn [sbind]; try (intros [= <- <-]; reflexivity).
    destruct (src_read (zlen w) (br_src b)) as [[s' dd] res]. destruct (ring_slice_store _ _ _ _ _) as [r1|e| | |]; cbn [on_ring sbind]; try (intros [= <- <-]; reflexivity).
    destruct res as [k|e| | |]; cbn [sbind]; try (intros [= <- <-]; reflexivity).
    destruct (ring_feed _ _ _) as [r2|e| | |]; cbn [on_ring sbind]; intros [= <- <-]; reflexivity.
  Qed.

  Definition broke {A} (r : out io_error A) : Prop := r = Panic /\ t_checks t = true.
  Lemma rg_peek b d : br_buffer t b = Ret d -> ring_step t (br_ring b) (RPeek (umax t)) = Ret (br_ring b, OBytes d).
  Proof. unfold br_buffer. intros E. cbn [ring_step]. rewrite E. reflexivity. Qed.
  Lemma rg_buffer b : rgood b -> exists d, br_buffer t b = Ret d /\ zlen d <= cap /\ ring_read_len t (br_ring b) = Ret (zlen d).
  Proof.
    intros ([d I] & L & _). pose proof (w_d _ _ _ I) as Hd. destruct (w_read_slice t Hbits _ _ (umax t) I Hu0) as (s & Es & Ls). exists s. split; [exact Es|].
    assert (E : zlen s = d). { rewrite Ls. unfold umax. destruct I; lia. }
    rewrite E. split; [lia|exact (w_read_len t Hbits _ _ I)].
  Qed.

  Lemma wk_fill b b' r : rgood b -> br_fill_buf t b = (b', r) ->
    ends t (br_ring b) (c_fill t (br_lowat b) (br_src b)) (br_ring b') (br_src b', r) (broke r).
  Proof.
    intros G E. pose proof (fill_weak t Hbits cap _ _ _ G E) as (G' & Nf & Bf). destruct (rg_buffer _ G) as (buf & EB & Lb & ERL). pose proof (zlen_nonneg buf).
    pose proof G as ([d I] & L & Hs & Hlw). unfold br_fill_buf in E. rewrite ERL in E. cbn [sbind] in E. unfold c_fill.
    eapply ends_len; [exact ERL|]. cbv beta. destruct (zlen buf <=? br_lowat b).
    2:{ cbn [sbind] in E. injection E as <- <-. rewrite EB. eapply ends_do; [exact Hu|exact (rg_peek _ _ EB)|]. apply ends_pure. }
    destruct (w_write_slice t Hbits _ _ (umax t) I Hu0) as (w & Ew & Lw). rewrite Ew in E. cbn [sbind] in E. pose proof (zlen_nonneg w) as Hw0.
    pose proof (w_write_len t Hbits _ _ I) as EWL. pose proof (w_d _ _ _ I) as Hd.
    assert (Zw : zlen w = r_len (br_ring b) - d) by (rewrite Lw; unfold umax; lia).
    eapply ends_len; [exact EWL|]. cbv beta. replace (Z.min (r_len (br_ring b) - d) (umax t)) with (zlen w) by (unfold umax; lia).
    destruct (src_read (zlen w) (br_src b)) as [[s' dd] res] eqn:Er. destruct (src_weak t Hbits _ _ _ _ _ Hw0 Hs Er) as (Hs' & Hdl & Hres).
    cbn [br_with_src br_ring br_src br_lowat] in E.
    destruct (w_store t Hbits _ _ (umax t) 0 dd I Hu0) as [(r1 & E1 & I1 & L1 & _)|E1]; [|destruct (store_fits _ _ _ _ w I Hu0 Ew Hdl E1)].
    rewrite E1 in E. cbn [on_ring sbind br_with_ring br_ring br_src br_lowat] in E.
    eapply ends_do; [split; [exact Hu|unfold is_usize; lia]|cbn [ring_step]; rewrite E1; reflexivity|]. cbv beta.
    destruct res as [k|e| | |]; cbn [sbind] in E; try (injection E as <- <-; apply ends_pure).
    assert (Hk : is_usize t k) by (eapply src_usize; [|exact Hs|exact Er]; unfold is_usize; lia).
    destruct (w_feed t Hbits _ _ k I1 Hres) as [(r2 & E2 & I2 & L2)|(E2 & C & _)]; rewrite E2 in E; cbn [on_ring sbind] in E.
    - eapply ends_do; [exact Hk|cbn [ring_step]; rewrite E2; reflexivity|].
      injection E as <- <-. destruct (rg_buffer _ G') as (buf' & EB' & _). cbn [br_with_ring br_ring br_src] in *. rewrite EB'.
      eapply ends_do; [exact Hu|exact (rg_peek _ _ EB')|]. apply ends_pure.
    - injection E as <- <-. apply ends_bad; [exact Hk|cbn [ring_step]; rewrite E2; reflexivity|split; [reflexivity|exact C]].
  Qed.

  Lemma wk_consume b n : rgood b -> is_usize t n -> exists b', br_consume t b n = (b', Ret tt) /\ rgood b' /\ br_src b' = br_src b /\ br_lowat b' = br_lowat b /\
    ring_step t (br_ring b) (RConsume n) = Ret (br_ring b', OUnit).
  Proof.
    intros G Hn. destruct (br_consume t b n) as [b' r] eqn:E. destruct (consume_weak t Hbits cap _ _ _ _ G (proj1 Hn) E) as [G' ->].
    exists b'. split; [reflexivity|]. split; [exact G'|]. pose proof (consume_step t _ _ _ E) as S. unfold br_consume, on_ring in E.
    destruct (ring_consume t (br_ring b) n); try discriminate E. injection E as <-. auto.
  Qed.

  Lemma wk_read b n b' d r : rgood b -> is_usize t n -> br_read t b n = (b', d, r) ->
    ends t (br_ring b) (c_read t cap (br_lowat b) (br_src b) n) (br_ring b') (br_src b', d, r) (broke r) /\ br_lowat b' = br_lowat b.
  Proof.
    intros G Hn E. destruct (rg_buffer _ G) as (buf & EB & Lb & ERL). pose proof G as (_ & L & _).
    unfold br_read in E. rewrite ERL in E. cbn [sbind] in E. unfold ring_write_capacity in E. rewrite L in E.
    unfold c_read. destruct ((zlen buf =? 0) && (cap <=? n)) eqn:Hd.
    - split; [|destruct (src_read n (br_src b)) as [[s' d'] res]; injection E as <- <- <-; reflexivity].
      eapply ends_len; [exact ERL|]. cbv beta. rewrite Hd. destruct (src_read n (br_src b)) as [[s' d'] res]. injection E as <- <- <-. apply ends_pure.
    - destruct (br_fill_buf t b) as [b1 r1] eqn:E1. destruct (fill_weak t Hbits cap _ _ _ G E1) as (G1 & N1 & B1). pose proof (low_fill _ _ _ E1) as L1. pose proof (wk_fill _ _ _ G E1) as W1.
      assert (Go : forall X, ends t (br_ring b) (cbind (c_fill t (br_lowat b) (br_src b)) X) (br_ring b') (br_src b', d, r) (broke r) ->
        X = (fun '(s', r) => match r with
          | Ret avail => let d := ztake n avail in Do (RConsume (zlen d)) (fun _ => Pure (s', d, Ret (zlen d)))
          | Err e => Pure (s', [], Err e) | Panic => Pure (s', [], Panic) | Fault => Pure (s', [], Fault) | Blocked => Pure (s', [], Blocked) end) ->
        ends t (br_ring b) (Len false (fun rl => if (rl =? 0) && (cap <=? n) then Pure (src_read n (br_src b)) else cbind (c_fill t (br_lowat b) (br_src b)) X)) (br_ring b') (br_src b', d, r) (broke r)).
      { intros X H _. eapply ends_len; [exact ERL|]. cbv beta. rewrite Hd. exact H. }
      destruct r1 as [avail|e| | |].
      + destruct (rg_buffer _ G1) as (buf1 & EB1 & Lb1 & _). rewrite (B1 _ eq_refl) in EB1. injection EB1 as <-.
        assert (Hz : is_usize t (zlen (ztake n avail))).
        { pose proof (zlen_nonneg avail). unfold is_usize in *. rewrite zlen_ztake by lia. lia. }
        destruct (wk_consume b1 _ G1 Hz) as (b3 & E3 & G3 & S3 & L3 & St3). rewrite E3 in E. injection E as <- <- <-. split; [|congruence].
        apply Go; [|reflexivity]. eapply ends_bind; [exact W1|intros [K _]; discriminate K|]. cbv beta iota zeta.
        eapply ends_do; [exact Hz|exact St3|]. rewrite S3. apply ends_pure.
      + injection E as <- <- <-. split; [|exact L1]. apply Go; [|reflexivity]. eapply ends_bind; [exact W1|intros [K _]; discriminate K|]. apply ends_pure.
      + injection E as <- <- <-. split; [|exact L1]. apply Go; [|reflexivity]. eapply ends_bind; [exact W1|intros [_ K]; split; [reflexivity|exact K]|]. apply ends_pure.
      + congruence.
      + injection E as <- <- <-. split; [|exact L1]. apply Go; [|reflexivity]. eapply ends_bind; [exact W1|intros [K _]; discriminate K|]. apply ends_pure.
  Qed.

  Lemma wk_until fuel : forall b c acc b' d r, rgood b -> br_until_loop t fuel b c acc = (b', d, r) ->
    ends t (br_ring b) (c_until_loop t fuel (br_lowat b) (br_src b) c acc) (br_ring b') (br_src b', d, r) (broke r) /\ br_lowat b' = br_lowat b.
  Proof.
    induction fuel as [|f IH]; intros b c acc b' d r G E; cbn [br_until_loop c_until_loop] in *.
    - injection E as <- <- <-. split; [apply ends_pure|reflexivity].
    - destruct (br_fill_buf t b) as [b1 r1] eqn:E1. destruct (fill_weak t Hbits cap _ _ _ G E1) as (G1 & N1 & B1). pose proof (low_fill _ _ _ E1) as L1. pose proof (wk_fill _ _ _ G E1) as W1.
      destruct r1 as [avail|e| | |]; try congruence.
      + destruct (rg_buffer _ G1) as (buf1 & EB1 & Lb1 & _). rewrite (B1 _ eq_refl) in EB1. injection EB1 as <-. pose proof (zlen_nonneg avail) as Hz0.
        destruct (find_byte c avail) as [k|] eqn:Ef.
        * destruct (find_byte_some _ _ _ Ef) as (Hk & _). assert (Hz : is_usize t (k + 1)) by (unfold is_usize; lia).
          destruct (wk_consume b1 _ G1 Hz) as (b3 & E3 & G3 & S3 & L3 & St3). rewrite E3 in E. injection E as <- <- <-. split; [|congruence].
          eapply ends_bind; [exact W1|intros [K _]; discriminate K|]. cbv beta iota. rewrite Ef. eapply ends_do; [exact Hz|exact St3|]. rewrite S3. apply ends_pure.
        * assert (Hz : is_usize t (zlen avail)) by (unfold is_usize; lia).
          destruct (wk_consume b1 _ G1 Hz) as (b3 & E3 & G3 & S3 & L3 & St3). rewrite E3 in E.
          destruct (zlen avail =? 0) eqn:Ez.
          -- injection E as <- <- <-. split; [|congruence]. eapply ends_bind; [exact W1|intros [K _]; discriminate K|]. cbv beta iota. rewrite Ef.
             eapply ends_do; [exact Hz|exact St3|]. rewrite Ez, S3. apply ends_pure.
          -- destruct (IH _ _ _ _ _ _ G3 E) as [H3 L4]. split; [|congruence]. eapply ends_bind; [exact W1|intros [K _]; discriminate K|]. cbv beta iota. rewrite Ef.
             eapply ends_do; [exact Hz|exact St3|]. cbv beta. rewrite Ez. rewrite <- S3, <- L1, <- L3. exact H3.
      + destruct (io_kind_of e) eqn:Ek; try (injection E as <- <- <-; split; [|exact L1]; eapply ends_bind; [exact W1|intros [K _]; discriminate K|]; cbv beta iota; rewrite Ek; apply ends_pure).
        destruct (IH _ _ _ _ _ _ G1 E) as [H3 L4]. split; [|congruence]. eapply ends_bind; [exact W1|intros [K _]; discriminate K|]. cbv beta iota. rewrite Ek, <- L1. exact H3.
      + injection E as <- <- <-. split; [|exact L1]. eapply ends_bind; [exact W1|intros [_ K]; split; [reflexivity|exact K]|]. apply ends_pure.
      + injection E as <- <- <-. split; [|exact L1]. eapply ends_bind; [exact W1|intros [K _]; discriminate K|]. apply ends_pure.
  Qed.

  Lemma wk_exact fuel : forall b n acc b' d r, rgood b -> n < 2 ^ t_bits t -> br_exact_loop t fuel b n acc = (b', d, r) ->
    ends t (br_ring b) (c_exact_loop t cap fuel (br_lowat b) (br_src b) n acc) (br_ring b') (br_src b', d, r) (broke r) /\ br_lowat b' = br_lowat b.
  Proof.
    induction fuel as [|f IH]; intros b n acc b' d r G Hb E; cbn [br_exact_loop c_exact_loop] in *;
      (destruct (Z.leb_spec n 0) as [Hn|Hn]; [injection E as <- <- <-; split; [apply ends_pure|reflexivity]|]).
    - injection E as <- <- <-. split; [apply ends_pure|reflexivity].
    - destruct (br_read t b n) as [[b1 d1] r1] eqn:E1. assert (Hu1 : is_usize t n) by (unfold is_usize; lia).
      destruct (wk_read _ _ _ _ _ G Hu1 E1) as [W1 L1]. destruct (read_weak t Hbits cap _ _ _ _ _ G (proj1 Hu1) E1) as (G1 & N1 & _ & Hk).
      destruct r1 as [k|e| | |]; try congruence.
      + specialize (Hk k eq_refl). destruct (k =? 0) eqn:Ek.
        { injection E as <- <- <-. split; [|exact L1]. eapply ends_bind; [exact W1|intros [K _]; discriminate K|]. cbv beta iota. rewrite Ek. apply ends_pure. }
        destruct (n <? k) eqn:Ek2.
        { injection E as <- <- <-. split; [|exact L1]. eapply ends_bind; [exact W1|intros [K _]; discriminate K|]. cbv beta iota. rewrite Ek, Ek2. apply ends_pure. }
        destruct (IH _ (n - k) _ _ _ _ G1 ltac:(lia) E) as [H3 L3]. split; [|congruence]. eapply ends_bind; [exact W1|intros [K _]; discriminate K|]. cbv beta iota. rewrite Ek, Ek2, <- L1. exact H3.
      + destruct (io_kind_of e) eqn:Ek; try (injection E as <- <- <-; split; [|exact L1]; eapply ends_bind; [exact W1|intros [K _]; discriminate K|]; cbv beta iota; rewrite Ek; apply ends_pure).
        destruct (IH _ n _ _ _ _ G1 Hb E) as [H3 L3]. split; [|congruence]. eapply ends_bind; [exact W1|intros [K _]; discriminate K|]. cbv beta iota. rewrite Ek, <- L1. exact H3.
      + injection E as <- <- <-. split; [|exact L1]. eapply ends_bind; [exact W1|intros [_ K]; split; [reflexivity|exact K]|]. apply ends_pure.
      + injection E as <- <- <-. split; [|exact L1]. eapply ends_bind; [exact W1|intros [K _]; discriminate K|]. apply ends_pure.
  Qed.

  Lemma broke_bind {A B} (r : out io_error A) (f : A -> out io_error B) : broke r -> broke (obind r f).
  Proof. intros [-> K]. split; [reflexivity|exact K]. Qed.
  Lemma wk_rstep b o b' d r : rgood b -> brop_ok t o -> br_step t b o = (b', d, r) ->
    ends t (br_ring b) (c_rstep t cap (br_lowat b) (br_src b) o) (br_ring b') (br_lowat b', br_src b', d, r) (broke r).
  Proof.
    intros G Ho E. destruct o as [n| |n|n|c|n]; cbn [br_step c_rstep brop_ok] in *.
    - destruct (br_read t b n) as [[b1 d1] r1] eqn:E1. injection E as <- <- <-. destruct (wk_read _ _ _ _ _ G Ho E1) as [W1 L1]. rewrite L1.
      eapply ends_bind; [exact W1|apply broke_bind|]. apply ends_pure.
    - destruct (br_fill_buf t b) as [b1 r1] eqn:E1. injection E as <- <- <-. rewrite (low_fill _ _ _ E1).
      eapply ends_bind; [exact (wk_fill _ _ _ G E1)|apply broke_bind|]. apply ends_pure.
    - destruct (rg_buffer _ G) as (buf & EB & _). rewrite EB in E. destruct (wk_consume b n G Ho) as (b3 & E3 & G3 & S3 & L3 & St3).
      rewrite E3 in E. injection E as <- <- <-. eapply ends_do; [exact Hu|exact (rg_peek _ _ EB)|]. eapply ends_do; [exact Ho|exact St3|]. rewrite S3, L3. apply ends_pure.
    - injection E as <- <- <-. apply ends_pure.
    - unfold br_read_until in E. destruct (wk_until _ _ _ _ _ _ _ G E) as [W1 L1]. eapply ends_bind; [exact W1|exact (fun K => K)|]. cbv beta iota. rewrite L1. apply ends_pure.
    - unfold br_read_exact in E. destruct (wk_exact _ _ _ _ _ _ _ G (proj2 Ho) E) as [W1 L1]. eapply ends_bind; [exact W1|exact (fun K => K)|]. cbv beta iota. rewrite L1. apply ends_pure.
  Qed.
  Definition broken (rs : list (out io_error unit)) : Prop := In Panic rs /\ t_checks t = true.
  Lemma wk_rrun os : forall b b' d rs, rgood b -> Forall (brop_ok t) os -> br_run t b os = (b', d, rs) ->
    ends t (br_ring b) (c_rrun t cap (br_lowat b) (br_src b) os) (br_ring b') (br_lowat b', br_src b', d, rs) (broken rs).
  Proof.
    induction os as [|o os IH]; intros b b' d rs G F E; cbn [br_run c_rrun] in *.
    - injection E as <- <- <-. apply ends_pure.
    - apply Forall_cons_iff in F as [Ho F]. destruct (br_step t b o) as [[b1 d1] r1] eqn:E1. pose proof (wk_rstep _ _ _ _ _ G Ho E1) as W1.
      destruct (br_step_weak t Hbits cap _ _ _ _ _ G Ho E1) as [G1 N1].
      destruct r1 as [u|e| | |]; try congruence; try (injection E as <- <- <-; eapply ends_bind; [exact W1|intros [K _]; discriminate K|]; apply ends_pure);
        (destruct (br_run t b1 os) as [[b2 d2] rs2] eqn:E2; injection E as <- <- <-; pose proof (IH _ _ _ _ G1 F E2) as W2;
         eapply ends_bind; [exact W1|first [intros [K _]; discriminate K|intros [_ K]; split; [left; reflexivity|exact K]]|];
         eapply ends_bind; [exact W2|intros [K1 K2]; split; [right; exact K1|exact K2]|]; apply ends_pure).
  Qed.

  (** ** Writers *)
  Lemma sink_usize b buf b' r : zlen buf < 2 ^ t_bits t -> wgood b -> bw_inner_write b buf = (b', Ret r) -> is_usize t r.
  Proof.
    unfold is_usize. intros Hz (_ & _ & Hs). unfold bw_inner_write, sink_write. destruct (ws_script (bw_sink b)) as [|a rest]; [discriminate|]. apply Forall_cons_iff in Hs as [Ha _].
    destruct a as [k|k|e|]; intros X; try discriminate X; injection X as <- <-; [|exact Ha].
    split; [apply zlen_nonneg|]. destruct (Z.le_gt_cases 0 k); [rewrite zlen_ztake by lia; lia|rewrite ztake_neg by lia; change (zlen []) with 0; lia].
  Qed.
  Lemma wg_buffer b : wgood b -> exists d, bw_buffer t b = Ret d /\ zlen d <= cap /\ ring_read_len t (bw_ring b) = Ret (zlen d).
  Proof.
    intros ([d I] & L & _). pose proof (w_d _ _ _ I) as Hd. destruct (w_read_slice t Hbits _ _ (umax t) I Hu0) as (s & Es & Ls). exists s. split; [exact Es|].
    assert (E : zlen s = d). { rewrite Ls. unfold umax. destruct I; lia. }
    rewrite E. split; [lia|exact (w_read_len t Hbits _ _ I)].
  Qed.
  Lemma wk_flush_loop fuel : forall b b' r, wgood b -> bw_flush_loop t fuel b = (b', r) ->
    evalo t (bw_ring b) (c_flush_loop t fuel (bw_sink b) (bw_panicked b)) (Some (bw_ring b', (bw_sink b', bw_panicked b', r))).
  Proof.
    induction fuel as [|f IH]; intros b b' r G E; cbn [bw_flush_loop c_flush_loop] in *.
    - injection E as <- <-. apply eo_pure.
    - destruct (wg_buffer _ G) as (data & EB & Lb & ERL). pose proof (zlen_nonneg data). pose proof G as ([dd I] & L & Hs).
      unfold ring_is_empty in E. rewrite ERL in E. cbn [obind sbind] in E. eapply eo_len; [exact ERL|]. cbv beta.
      destruct (zlen data =? 0). { injection E as <- <-. apply eo_pure. }
      rewrite EB in E. cbn [sbind] in E. eapply eo_do; [exact Hu|cbn [ring_step]; unfold bw_buffer in EB; rewrite EB; reflexivity|].
      cbn [slice_of]. destruct (bw_inner_write b data) as [b1 r1] eqn:E1. destruct (c_inner _ _ _ _ E1) as [-> Er]. destruct (inner_weak t cap _ _ _ _ G E1) as (G1 & _ & M1).
      destruct r1 as [n|e| | |]; rewrite <- Er; try (injection E as <- <-; apply eo_pure).
      + destruct (n =? 0). { injection E as <- <-. apply eo_pure. }
        assert (Hn : is_usize t n) by (eapply sink_usize; [|exact G|exact E1]; lia).
        pose proof G1 as ([d1 I1] & L1 & Hs1). destruct (w_consume t Hbits _ _ n I1 M1) as (r' & E' & I' & L'). rewrite E' in E.
        eapply eo_do; [exact Hn|cbn [ring_step]; rewrite E'; reflexivity|].
        refine (IH {| bw_ring := r'; bw_sink := bw_sink b1; bw_panicked := bw_panicked b1 |} _ _ _ E).
        split; [eexists; exact I'|]. split; [cbn; lia|exact Hs1].
      + destruct (io_kind_of e); try (injection E as <- <-; apply eo_pure). exact (IH _ _ _ G1 E).
  Qed.
  Lemma wk_flush b b' r : wgood b -> bw_flush t b = (b', r) ->
    evalo t (bw_ring b) (c_flush t (bw_sink b) (bw_panicked b)) (Some (bw_ring b', (bw_sink b', bw_panicked b', r))).
  Proof.
    intros G E. unfold bw_flush, bw_flush_buf in E. destruct (bw_flush_loop t _ b) as [b1 r1] eqn:E1.
    unfold c_flush, c_flush_buf. refine (evalo_bind t _ _ _ (wk_flush_loop _ _ _ _ G E1) _ _ _). cbv beta iota. cbn [sbind] in E.
    destruct r1 as [u|e| | |]; try (injection E as <- <-; apply eo_pure).
    destruct (sink_flush (bw_sink b1)) as [s2 r2]. injection E as <- <-. apply eo_pure.
  Qed.
  Lemma wk_write b buf b' r : wgood b -> bw_write t b buf = (b', r) ->
    ends t (bw_ring b) (c_write t (bw_sink b) (bw_panicked b) buf) (bw_ring b') (bw_sink b', bw_panicked b', r) (broke r).
  Proof.
    intros G E. pose proof G as ([dd I] & L & Hs). pose proof (w_write_len t Hbits _ _ I) as EWL.
    unfold bw_write in E. rewrite EWL in E. cbn [sbind] in E. unfold c_write. eapply ends_len; [exact EWL|]. cbv beta.
    assert (Tail : forall b1, wgood b1 ->
      (sbind (b1, ring_write_len t (bw_ring b1)) (fun b wl' =>
         if wl' <=? zlen buf then bw_inner_write b buf
         else match ring_write t (bw_ring b) buf with
              | Ret (r', n) => ({| bw_ring := r'; bw_sink := bw_sink b; bw_panicked := bw_panicked b |}, Ret n)
              | Err e => (b, Err e) | Panic => (b, Panic) | Fault => (b, Fault) | Blocked => (b, Blocked)
              end)) = (b', r) ->
      ends t (bw_ring b1) (Len true (fun wl' =>
        if wl' <=? zlen buf then Pure (c_inner_write (bw_sink b1) buf)
        else Do (RWrite buf) (fun x => Pure (bw_sink b1, bw_panicked b1, Ret (count_of x))))) (bw_ring b') (bw_sink b', bw_panicked b', r) (broke r)).
    { intros b1 ([d1 I1] & L1 & Hs1) E1. pose proof (w_write_len t Hbits _ _ I1) as EWL1. rewrite EWL1 in E1. cbn [sbind] in E1. eapply ends_len; [exact EWL1|]. cbv beta.
      destruct (_ <=? zlen buf).
      - destruct (c_inner _ _ _ _ E1) as [-> <-]. apply ends_pure.
      - pose proof (w_write t Hbits _ _ buf I1) as HW. destruct (ring_write t (bw_ring b1) buf) as [[r' n]|e| | |] eqn:Ew; try contradiction.
        + injection E1 as <- <-. eapply ends_do; [exact Logic.I|cbn [ring_step]; rewrite Ew; cbn [obind fst snd]; reflexivity|]. apply ends_pure.
        + injection E1 as <- <-. apply ends_bad; [exact Logic.I|cbn [ring_step]; rewrite Ew; reflexivity|]. split; [reflexivity|exact (write_panics _ _ _ I1 Ew)]. }
    destruct (_ <? zlen buf).
    - unfold bw_flush_buf in E. destruct (bw_flush_loop t _ b) as [b1 r1] eqn:E1. destruct (flush_weak t Hbits cap _ _ _ _ G E1) as [G1 N1].
      eapply (ends_bind t _ _ _ _ False); [left; exact (wk_flush_loop _ _ _ _ G E1)|intros []|]. cbv beta iota. cbn [sbind] in E.
      destruct r1 as [u|e| | |]; try (injection E as <- <-; apply ends_pure). exact (Tail _ G1 E).
    - cbn [cbind]. cbn [sbind] in E. exact (Tail _ G E).
  Qed.
  Lemma wk_write_all fuel : forall b buf told b' d r, wgood b -> bw_write_all_loop t fuel b buf told = (b', d, r) ->
    ends t (bw_ring b) (c_write_all_loop t fuel (bw_sink b) (bw_panicked b) buf told) (bw_ring b') (bw_sink b', bw_panicked b', d, r) (broke r).
  Proof.
    induction fuel as [|f IH]; intros b buf told b' d r G E; (destruct buf as [|x buf]; [injection E as <- <- <-; apply ends_pure|]).
    - injection E as <- <- <-. apply ends_pure.
    - cbn [bw_write_all_loop c_write_all_loop] in *. set (bf := x :: buf) in *.
      destruct (bw_write t b bf) as [b1 r1] eqn:E1. pose proof (wk_write _ _ _ _ G E1) as W1. destruct (write_weak t Hbits cap _ _ _ _ G E1) as (G1 & N1 & _).
      destruct r1 as [n|e| | |]; try congruence.
      + eapply ends_bind; [exact W1|intros [K _]; discriminate K|]. cbv beta iota. destruct (n =? 0); [injection E as <- <- <-; apply ends_pure|].
        destruct (_ <? n); [injection E as <- <- <-; apply ends_pure|]. exact (IH _ _ _ _ _ _ G1 E).
      + eapply ends_bind; [exact W1|intros [K _]; discriminate K|]. cbv beta iota. destruct (io_kind_of e); try (injection E as <- <- <-; apply ends_pure). exact (IH _ _ _ _ _ _ G1 E).
      + injection E as <- <- <-. eapply ends_bind; [exact W1|intros [_ K]; split; [reflexivity|exact K]|]. apply ends_pure.
      + injection E as <- <- <-. eapply ends_bind; [exact W1|intros [K _]; discriminate K|]. apply ends_pure.
  Qed.
  Lemma wk_wstep b o b' d r : wgood b -> bw_step t b o = (b', d, r) ->
    ends t (bw_ring b) (c_wstep t (bw_sink b) (bw_panicked b) o) (bw_ring b') (bw_sink b', bw_panicked b', d, r) (broke r).
  Proof.
    intros G E. destruct o as [buf|buf|]; cbn [bw_step c_wstep] in *.
    - destruct (bw_write t b buf) as [b1 r1] eqn:E1. injection E as <- <- <-. eapply ends_bind; [exact (wk_write _ _ _ _ G E1)|apply broke_bind|]. apply ends_pure.
    - exact (wk_write_all _ _ _ _ _ _ _ G E).
    - destruct (bw_flush t b) as [b1 r1] eqn:E1. injection E as <- <- <-. eapply (ends_bind t _ _ _ _ False); [left; exact (wk_flush _ _ _ G E1)|intros []|]. apply ends_pure.
  Qed.
  Lemma wk_wrun os : forall b b' d rs, wgood b -> bw_run t b os = (b', d, rs) ->
    ends t (bw_ring b) (c_wrun t (bw_sink b) (bw_panicked b) os) (bw_ring b') (bw_sink b', bw_panicked b', d, rs) (broken rs).
  Proof.
    induction os as [|o os IH]; intros b b' d rs G E; cbn [bw_run c_wrun] in *.
    - injection E as <- <- <-. apply ends_pure.
    - destruct (bw_step t b o) as [[b1 d1] r1] eqn:E1. pose proof (wk_wstep _ _ _ _ _ G E1) as W1.
      destruct (bw_step_weak t Hbits cap _ _ _ _ _ G E1) as [G1 N1].
      destruct r1 as [u|e| | |]; try congruence; try (injection E as <- <- <-; eapply ends_bind; [exact W1|intros [K _]; discriminate K|]; apply ends_pure);
        (destruct (bw_run t b1 os) as [[b2 d2] rs2] eqn:E2; injection E as <- <- <-; pose proof (IH _ _ _ _ G1 E2) as W2;
         eapply ends_bind; [exact W1|first [intros [K _]; discriminate K|intros [_ K]; split; [left; reflexivity|exact K]]|];
         eapply ends_bind; [exact W2|intros [K1 K2]; split; [right; exact K1|exact K2]|]; apply ends_pure).
  Qed.
  Lemma wk_drop b s r : wgood b -> bw_drop t b = (s, r) -> exists b2, wgood b2 /\ evalo t (bw_ring b) (c_drop t (bw_sink b) (bw_panicked b)) (Some (bw_ring b2, (s, r))).
  Proof.
    intros G E. unfold bw_drop, c_drop in *. destruct (bw_panicked b) eqn:Ep.
    - injection E as <- <-. exists b. split; [exact G|apply eo_pure].
    - destruct (bw_flush_buf t b) as [b1 r1] eqn:E1. injection E as <- <-. unfold bw_flush_buf in E1. destruct (flush_weak t Hbits cap _ _ _ _ G E1) as [G1 _].
      exists b1. split; [exact G1|]. unfold c_flush_buf. refine (evalo_bind t _ _ _ _ _ _ _); [rewrite <- Ep; exact (wk_flush_loop _ _ _ _ G E1)|]. apply eo_pure.
  Qed.
  Lemma wk_wlife os b b' d rs s r : wgood b -> bw_run t b os = (b', d, rs) -> bw_drop t b' = (s, r) -> exists b2, wgood b2 /\
    ends t (bw_ring b) (c_wlife t (bw_sink b) (bw_panicked b) os) (bw_ring b2) (s, d, rs ++ [r]) (broken (rs ++ [r])).
  Proof.
    intros G E Ed. destruct (bw_run_weak t Hbits cap _ _ _ _ _ G E) as [G1 _]. destruct (wk_drop _ _ _ G1 Ed) as (b2 & G2 & W2). exists b2. split; [exact G2|].
    unfold c_wlife. eapply ends_bind; [exact (wk_wrun _ _ _ _ _ G E)|intros [K1 K2]; split; [apply in_or_app; left; exact K1|exact K2]|]. cbv beta iota.
    eapply (ends_bind t _ _ _ _ False); [left; exact W2|intros []|]. apply ends_pure.
  Qed.
End Weak.

(** ** Processes *)
Section X.
  Variable t : target.
  Variables P C : Type.
  Variable other : C -> Prop.
  Variable step : C -> P -> P.
  Variable own : rop -> P -> option (out io_error rout) * P.
  Variable len : bool -> P -> option (out io_error Z).
  Variable sim : P -> ring -> Prop.
  Hypothesis Hother : forall p r e, sim p r -> other e -> sim (step e p) r.
  Hypothesis Hlen : forall p r (w : bool) n, sim p r -> (if w then ring_write_len t r else ring_read_len t r) = Ret n -> len w p = Some (Ret n).
  Hypothesis Hown : forall p r o r1 x, sim p r -> rop_ok t o -> ring_step t r o = Ret (r1, x) ->
    exists p1, own o p = (Some (Ret x), p1) /\ sim p1 r1.
  Variable left_ok : P -> Prop.
  Hypothesis Hbad : forall p r o, sim p r -> rop_ok t o -> ring_step t r o = Panic -> exists p1, own o p = (Some Panic, p1) /\ left_ok p1.

  Lemma weak_sound {A} p (c : code A) res p' : exec P C other step own len p c res p' -> forall r x, sim p r -> evalo t r c x ->
    match x with Some (r', a) => res = Some a /\ sim p' r' | None => res = None /\ left_ok p' end.
  Proof.
    induction 1 as [p c e res p' O X IH|p a|p w k n res p' L X IH|p w k L|p o k x p1 res p' O X IH|p o k z p1 O B]; intros r y S Ev.
    - exact (IH _ _ (Hother _ _ _ S O) Ev).
    - inversion Ev; subst. split; [reflexivity|exact S].
    - inversion Ev as [|? ? ? m ? L2 Ev2| |]; subst. rewrite (Hlen _ _ _ _ S L2) in L. injection L as <-. exact (IH _ _ S Ev2).
    - inversion Ev as [|? ? ? m ? L2 Ev2| |]; subst. rewrite (Hlen _ _ _ _ S L2) in L. exfalso. eapply L. reflexivity.
    - inversion Ev as [| |? ? ? r1 y1 ? Ok E Ev2|? ? ? Ok E]; subst.
      + destruct (Hown _ _ _ _ _ S Ok E) as (q & Oq & S1). rewrite Oq in O. injection O as <- <-. exact (IH _ _ S1 Ev2).
      + destruct (Hbad _ _ _ S Ok E) as (q & Oq & _). rewrite Oq in O. discriminate O.
    - inversion Ev as [| |? ? ? r1 y1 ? Ok E Ev2|? ? ? Ok E]; subst.
      + destruct (Hown _ _ _ _ _ S Ok E) as (q & Oq & S1). rewrite Oq in O. exfalso. injection O as <- _. eapply B. reflexivity.
      + destruct (Hbad _ _ _ S Ok E) as (q & Oq & Lq). rewrite Oq in O. injection O as _ <-. split; [reflexivity|exact Lq].
  Qed.
  Lemma weak_exists {A} r (c : code A) x : evalo t r c x -> forall p, sim p r -> exists res p', exec P C other step own len p c res p'.
  Proof.
    induction 1 as [r a|r w k n x L H IH|r o k r1 y x O E H IH|r o k O E]; intros p S.
    - eexists _, _. apply x_pure.
    - destruct (IH p S) as (res & p' & X). eexists _, _. eapply x_len; [exact (Hlen _ _ _ _ S L)|exact X].
    - destruct (Hown _ _ _ _ _ S O E) as (p1 & Oq & S1). destruct (IH p1 S1) as (res & p' & X). eexists _, _. eapply x_do; [exact Oq|exact X].
    - destruct (Hbad _ _ _ S O E) as (p1 & Oq & _). eexists _, _. eapply x_do_bad; [exact Oq|discriminate].
  Qed.
End X.
