(** Consequences of RingExact.v, and the converse: where the position of a
    ring is not exact, some history breaks it. *)
From Coq Require Import Lia Znumtheory.
From Verif Require Import Base ErrorModel RingSpec RingModel RingExactSpec SeqProofs SizeProofs
  RingProofs IRingProofs RingTheorems RingClaims RingWitness RingExact.

Definition ring_answers (t : target) (cap : Z) (m : Z -> byte) (os : list rop) : Prop :=
  exists res, qx_run (t_checks t) 0 {| q_data := []; q_free := view m 0 cap |} os res /\
    match res with
    | Some (q, xs) => exists r, ring_run t (ring_make cap m) os = Ret (r, xs) /\ ring_shows t cap r q
    | None => ring_run t (ring_make cap m) os = Panic
    end.

Definition iring_answers (t : target) (cap : Z) (m : Z -> byte) (os : list irop) : Prop :=
  exists res, lqx_run (t_checks t) 0 {| lq_tape := view m 0 cap; lq_len := 0 |} os res /\
    match res with
    | Some (q, xs) => exists r, iring_run t (iring_make cap m) os = Ret (r, xs) /\ iring_shows t cap r q
    | None => iring_run t (iring_make cap m) os = Panic
    end.

(** The answers alone. *)
Definition ring_replies (t : target) (ck : bool) (c : Z) (q : queue) (r : ring) (os : list rop) : Prop :=
  exists res, qx_run ck c q os res /\
    match res with
    | Some (_, xs) => exists r', ring_run t r os = Ret (r', xs)
    | None => ring_run t r os = Panic
    end.
Definition iring_replies (t : target) (ck : bool) (c : Z) (q : lqueue) (r : iring) (os : list irop) : Prop :=
  exists res, lqx_run ck c q os res /\
    match res with
    | Some (_, xs) => exists r', iring_run t r os = Ret (r', xs)
    | None => iring_run t r os = Panic
    end.
Lemma answers_reply t cap m os : ring_answers t cap m os ->
  ring_replies t (t_checks t) 0 {| q_data := []; q_free := view m 0 cap |} (ring_make cap m) os.
Proof. intros (res & Q & M). exists res. split; [exact Q|]. destruct res as [[q xs]|]; [|exact M]. destruct M as (r & E & _). eauto. Qed.
Lemma ianswers_reply t cap m os : iring_answers t cap m os ->
  iring_replies t (t_checks t) 0 {| lq_tape := view m 0 cap; lq_len := 0 |} (iring_make cap m) os.
Proof. intros (res & Q & M). exists res. split; [exact Q|]. destruct res as [[q xs]|]; [|exact M]. destruct M as (r & E & _). eauto. Qed.

(** A ring some history produced, whatever its length. *)
Definition ring_live (t : target) (cap : Z) (os : list rop) (r : ring) : Prop :=
  0 < cap /\ 2 * cap < 2 ^ t_bits t /\ exact_positions t cap /\ Forall (rop_ok t) os /\
  exists m xs, ring_run t (ring_make cap m) os = Ret (r, xs).

Definition iring_live (t : target) (cap : Z) (os : list irop) (r : iring) : Prop :=
  0 < cap /\ 2 * cap < 2 ^ t_bits t /\ exact_positions t cap /\ Forall (irop_ok t cap) os /\
  exists m xs, iring_run t (iring_make cap m) os = Ret (r, xs).

(** The call would take the write position to 2^64 in a build that checks. *)
Definition overflows (t : target) (p n : Z) : Prop := t_checks t = true /\ 2 ^ 64 <= p + n.

Section Pos.
  Variable t : target.
  Hypothesis Hg : good_target t.
  Let Hb : 32 <= t_bits t <= 64 := good_bits t Hg.

  Lemma answers cap m os : 0 < cap -> 2 * cap < 2 ^ t_bits t -> exact_positions t cap ->
    Forall (rop_ok t) os -> ring_answers t cap m os.
  Proof.
    intros Hc Hw X Ho. pose proof (make_inv t Hb cap m Hc ltac:(lia)) as I.
    destruct (run_exact t Hg os (ring_make cap m) 0 0 I X Ho) as (res & Q & M).
    replace (absq (ring_make cap m) 0 0) with {| q_data := []; q_free := view m 0 cap |} in Q.
    2:{ unfold absq. cbn [ring_make r_len r_mem].
        replace (cap - (0 - 0)) with cap by lia. rewrite mirror_id by lia. reflexivity. }
    exists res. split; [exact Q|]. destruct res as [[q xs]|]; [|exact M].
    destruct M as (r' & T' & R' & E & I' & A & L). exists r'. split; [exact E|].
    rewrite <- A. replace cap with (r_len r') by (rewrite L; reflexivity). apply (inv_shows t Hg), I'.
  Qed.

  Lemma live_inv cap os r : ring_live t cap os r -> exists T R, inv t r T R /\ r_len r = cap.
  Proof.
    intros (Hc & Hw & X & Ho & m & xs & E).
    pose proof (make_inv t Hb cap m Hc ltac:(lia)) as I.
    destruct (run_exact t Hg os (ring_make cap m) 0 0 I X Ho) as (res & Q & M).
    destruct res as [[q ys]|]; [|rewrite M in E; discriminate].
    destruct M as (r' & T' & R' & E' & I' & A & L). rewrite E' in E.
    injection E as -> _. exists T', R'. split; [exact I'|exact L].
  Qed.

  (** The position is the one the ring keeps when overflow is checked. *)
  Lemma checked_wpos r T R : inv t r T R -> t_checks t = true -> r_wpos r = T.
  Proof.
    intros I Hc. pose proof (inv_ok _ _ _ _ I) as [[HT|HT] _]; [|congruence].
    destruct I. rewrite inv_wpos. apply Z.mod_small. lia.
  Qed.

  (** One more call on a live ring. *)
  Lemma live_call cap os r o : ring_live t cap os r -> rop_ok t o ->
    exists q, ring_shows t cap r q /\
    (((q_panics q o \/ overflows t (r_wpos r) (q_enters q o)) /\ ring_step t r o = Panic) \/
     (~ q_panics q o /\ ~ overflows t (r_wpos r) (q_enters q o) /\
      exists r' x q', ring_step t r o = Ret (r', x) /\ q_step q o q' x /\ ring_shows t cap r' q')).
  Proof.
    intros H Ho. destruct (live_inv cap os r H) as (T & R & I & L). destruct H as (_ & _ & X & _).
    exists (absq r T R). split; [rewrite <- L; apply (inv_shows t Hg), I|].
    rewrite <- L in X. assert (W : t_checks t = true -> r_wpos r = T) by (apply (checked_wpos r T R I)).
    destruct (step_exact t Hg r T R o I Ho X) as [[Hp E]|(Hn & r' & x & R' & E & I' & S & L')].
    - left. split; [|exact E]. destruct Hp as [Hp|[Hc Hp]]; [left; exact Hp|right; split; [exact Hc|]].
      rewrite (W Hc). exact Hp.
    - right. split; [intros Hp; apply Hn; left; exact Hp|].
      split; [intros [Hc Hp]; apply Hn; right; split; [exact Hc|]; rewrite (W Hc) in Hp; exact Hp|].
      eexists r', x, _. split; [exact E|]. split; [exact S|]. rewrite <- L, <- L'. apply (inv_shows t Hg), I'.
  Qed.

  Lemma ianswers cap m os : 0 < cap -> 2 * cap < 2 ^ t_bits t -> exact_positions t cap ->
    Forall (irop_ok t cap) os -> iring_answers t cap m os.
  Proof.
    intros Hc Hw X Ho. pose proof (imake_inv t Hb cap m Hc Hw) as I.
    destruct (irun_exact t Hg os (iring_make cap m) 0 I X Ho) as (res & Q & M).
    replace (abst (iring_make cap m) 0) with {| lq_tape := view m 0 cap; lq_len := 0 |} in Q.
    2:{ unfold abst. cbn [iring_make i_len i_mem i_rlen]. rewrite mirror_id by lia. reflexivity. }
    exists res. split; [exact Q|]. destruct res as [[q xs]|]; [|exact M].
    destruct M as (r' & T' & E & I' & A & L). exists r'. split; [exact E|].
    rewrite <- A. replace cap with (i_len r') by (rewrite L; reflexivity). apply (iinv_shows t Hg), I'.
  Qed.

  Lemma ilive_inv cap os r : iring_live t cap os r -> exists T, iinv t r T /\ i_len r = cap.
  Proof.
    intros (Hc & Hw & X & Ho & m & xs & E).
    pose proof (imake_inv t Hb cap m Hc Hw) as I.
    destruct (irun_exact t Hg os (iring_make cap m) 0 I X Ho) as (res & Q & M).
    destruct res as [[q ys]|]; [|rewrite M in E; discriminate].
    destruct M as (r' & T' & E' & I' & A & L). rewrite E' in E.
    injection E as -> _. exists T'. split; [exact I'|exact L].
  Qed.

  Lemma ilive_call cap os r o : iring_live t cap os r -> irop_ok t cap o ->
    exists q, iring_shows t cap r q /\
    (((lq_panics q o \/ overflows t (i_wpos r) (lq_enters q o)) /\ iring_step t r o = Panic) \/
     (~ lq_panics q o /\ ~ overflows t (i_wpos r) (lq_enters q o) /\
      exists r' x q', iring_step t r o = Ret (r', x) /\ lq_step q o q' x /\ iring_shows t cap r' q')).
  Proof.
    intros H Ho. destruct (ilive_inv cap os r H) as (T & I & L). destruct H as (_ & _ & X & _).
    exists (abst r T). split; [rewrite <- L; apply (iinv_shows t Hg), I|].
    rewrite <- L in X, Ho.
    assert (W : t_checks t = true -> i_wpos r = T).
    { intros Hc. pose proof (ii_ok _ _ _ I) as [[HT|HT] _]; [|congruence].
      destruct I. rewrite ii_wpos. apply Z.mod_small. lia. }
    destruct (istep_exact t Hg r T o I Ho X) as [[Hp E]|(Hn & r' & x & E & I' & S & L')].
    - left. split; [|exact E]. destruct Hp as [Hp|[Hc Hp]]; [left; exact Hp|right; split; [exact Hc|]].
      rewrite (W Hc). exact Hp.
    - right. split; [intros Hp; apply Hn; left; exact Hp|].
      split; [intros [Hc Hp]; apply Hn; right; split; [exact Hc|]; rewrite (W Hc) in Hp; exact Hp|].
      eexists r', x, _. split; [exact E|]. split; [exact S|]. rewrite <- L, <- L'. apply (iinv_shows t Hg), I'.
  Qed.
End Pos.

(** ** The converse *)
Section Jump.
  Variable t : target.
  Hypothesis Hg : good_target t.
  Let Hb : 32 <= t_bits t <= 64 := good_bits t Hg.
  Variable cap : Z.
  Hypothesis Hc : 0 < cap.
  Hypothesis Hw : 2 * cap < 2 ^ t_bits t.
  Hypothesis Hx : ~ exact_positions t cap.

  Let W := 2 ^ t_bits t.
  Let s := W mod cap.
  Let p := cap * (W / cap).

  Lemma jump_split : W = p + s /\ 0 < s < cap.
  Proof.
    unfold p, s. pose proof (Z.div_mod W cap ltac:(lia)) as D.
    pose proof (Z.mod_pos_bound W cap Hc) as M. split; [lia|].
    assert (W mod cap <> 0); [|lia].
    intros Z0. apply Hx. left. exists (W / cap). fold W. rewrite D at 1. rewrite Z0. lia.
  Qed.

  (** Past the word: below 2^64 on 32-bit targets, else no checks. *)
  Lemma jump_room x : 0 <= x <= W + 1 -> 0 <= x < 2 ^ 64 \/ t_checks t = false.
  Proof.
    intros H. pose proof Hg as [[B|B] _].
    - left. unfold W in H. rewrite B in H. lia.
    - right. destruct (t_checks t) eqn:C; [|reflexivity]. exfalso. apply Hx. right. split; [exact B|exact C].
  Qed.

  Lemma W_small : 2 ^ 32 <= W <= 2 ^ 64.
  Proof. split; [apply (word_pos t Hb)|apply (word_le t Hb)]. Qed.

  Lemma W_mod x : (x mod 2 ^ 64) mod W = x mod W.
  Proof.
    pose proof W_small. symmetry. apply Zmod_div_mod; [lia|lia|apply pow2_div_64; clear - Hb; lia].
  Qed.

  (** *** Ring *)
  Fixpoint turns (k : nat) : list rop := match k with O => [] | S k' => [RFeed cap; RConsume cap] ++ turns k' end.
  Definition jump : list rop := [RStore cap s [9]; RFeed (s + 1); RConsume s; RRead 1].

  Let mk (r w : Z) (m : Z -> byte) : ring := {| r_len := cap; r_rpos := r mod 2 ^ 64; r_wpos := w mod 2 ^ 64; r_mem := m |}.

  Lemma mk_read_len r w m : 0 <= r <= w -> w <= W + 1 -> w - r <= cap -> ring_read_len t (mk r w m) = Ret (w - r).
  Proof.
    intros H1 H2 H3. unfold ring_read_len, sub64, mk. cbn [r_wpos r_rpos].
    pose proof W_small as HW. unfold W in *.
    rewrite wrap_sub_pos; [|lia|lia|]; [|destruct (jump_room w) as [?|?]; [unfold W; lia|left; lia|right; assumption]].
    cbn [obind]. unfold as_usize. rewrite Z.mod_small by lia. reflexivity.
  Qed.

  Lemma mk_write_len r w m : 0 <= r <= w -> w <= W + 1 -> w - r <= cap ->
    ring_write_len t (mk r w m) = Ret (cap - (w - r)).
  Proof.
    intros H1 H2 H3. unfold ring_write_len. rewrite mk_read_len by assumption. cbn [obind].
    unfold ring_write_capacity, usub. cbn [mk r_len]. apply wrap_in. lia.
  Qed.

  Lemma mk_feed r w m n : 0 <= r <= w -> w - r <= cap -> 0 <= n <= cap - (w - r) -> w + n <= W + 1 ->
    ring_feed t (mk r w m) n = Ret (mk r (w + n) m).
  Proof.
    intros H1 H2 H3 H4. unfold ring_feed. rewrite mk_write_len by lia. cbn [obind].
    rewrite Z.min_l by lia. unfold as_u64. pose proof W_small as HW. unfold W in *.
    rewrite (Z.mod_small n) by lia. unfold add64, mk; cbn [r_len r_wpos r_rpos r_mem].
    rewrite wrap_add_pos; [reflexivity|lia|lia|].
    destruct (jump_room (w + n)) as [?|?]; [unfold W; lia|left; lia|right; assumption].
  Qed.

  Lemma mk_consume r w m n : 0 <= r <= w -> w <= W + 1 -> w - r <= cap -> 0 <= n <= w - r ->
    ring_consume t (mk r w m) n = Ret (mk (r + n) w m).
  Proof.
    intros H1 H2 H3 H4. unfold ring_consume. rewrite mk_read_len by lia. cbn [obind].
    rewrite Z.min_l by lia. unfold as_u64. pose proof W_small as HW. unfold W in *.
    rewrite (Z.mod_small n) by lia. unfold add64, mk; cbn [r_len r_wpos r_rpos r_mem].
    rewrite wrap_add_pos; [reflexivity|lia|lia|].
    destruct (jump_room (r + n)) as [?|?]; [unfold W; lia|left; lia|right; assumption].
  Qed.

  Lemma mk_urem x : urem x cap = Ret (x mod cap).
  Proof. unfold urem. destruct (Z.eqb_spec cap 0); [lia|reflexivity]. Qed.

  Lemma turns_run k : forall x, 0 <= x -> x + cap * Z.of_nat k <= W -> exists xs,
    ring_run t (mk x x (fun _ => 0)) (turns k) = Ret (mk (x + cap * Z.of_nat k) (x + cap * Z.of_nat k) (fun _ => 0), xs).
  Proof.
    induction k as [|k IH]; intros x H0 H1.
    - exists []. cbn [turns ring_run]. do 2 f_equal; f_equal; lia.
    - cbn [turns app ring_run ring_step].
      rewrite (mk_feed x x _ cap) by nia. cbn [obind fst snd].
      rewrite (mk_consume x (x + cap) _ cap) by nia. cbn [obind fst snd].
      destruct (IH (x + cap)) as [xs E]; [lia|nia|]. rewrite E. cbn [obind fst snd].
      eexists. do 2 f_equal. f_equal; nia.
  Qed.

  Lemma p_mod : p mod cap = 0.
  Proof. unfold p. rewrite Z.mul_comm. apply Z.mod_mul. lia. Qed.

  Lemma jump_run : exists r, ring_run t (mk p p (fun _ => 0)) jump = Ret (r, [OUnit; OUnit; OUnit; OBytes [0]]).
  Proof.
    destruct jump_split as [HS Hs]. pose proof W_small as HW. pose proof Hw as Hw'. fold W in Hw'.
    assert (Hp : 0 <= p) by (unfold p; apply Z.mul_nonneg_nonneg; [lia|apply Z.div_pos; lia]).
    unfold jump. cbn [ring_run ring_step].
    (* the store goes to offset s *)
    assert (E1 : ring_slice_store t (mk p p (fun _ => 0)) cap s [9] = Ret (mk p p (upd (fun _ => 0) s 9))).
    { unfold ring_slice_store, ring_write_slice, ring_write_offset.
      rewrite mk_write_len by lia.
      cbn [mk r_len r_wpos r_mem]. rewrite mk_urem. cbn [obind].
      unfold as_usize. fold W. rewrite W_mod. rewrite (Z.mod_small p W) by lia. rewrite p_mod.
      replace (Z.min (cap - (p - p)) cap) with cap by lia. unfold vslice.
      destruct (Z.leb_spec 0 0); [|lia]. destruct (Z.leb_spec 0 cap); [|lia].
      destruct (Z.leb_spec (0 + cap) (2 * cap)); [|lia]. cbn [andb obind].
      rewrite view_len. destruct (Z.leb_spec 0 s); [|lia].
      change (zlen [9]) with 1. destruct (Z.leb_spec (s + 1) (Z.max 0 cap)); [|lia]. cbn [andb].
      unfold mk. do 2 f_equal. cbn [vstore]. rewrite Z.add_0_l, Z.mod_small by lia. reflexivity. }
    rewrite E1. cbn [obind fst snd].
    rewrite (mk_feed p p _ (s + 1)) by lia. cbn [obind fst snd].
    rewrite (mk_consume p (p + (s + 1)) _ s) by lia. cbn [obind fst snd].
    unfold ring_read, ring_read_slice, ring_read_offset.
    rewrite mk_read_len by lia. cbn [mk r_len r_rpos r_mem]. rewrite mk_urem. cbn [obind].
    unfold as_usize. fold W. rewrite W_mod. replace (p + s) with W by lia.
    rewrite Z.mod_same by lia. rewrite Z.mod_0_l by lia.
    replace (Z.min (p + (s + 1) - W) 1) with 1 by lia. unfold vslice.
    destruct (Z.leb_spec 0 0); [|lia]. destruct (Z.leb_spec 0 1); [|lia].
    destruct (Z.leb_spec (0 + 1) (2 * cap)); [|lia]. cbn [andb obind].
    assert (EV : view (mirror (upd (fun _ => 0) s 9) cap) 0 1 = [0]).
    { change (view (mirror (upd (fun _ : Z => 0) s 9) cap) 0 1) with [mirror (upd (fun _ : Z => 0) s 9) cap 0].
      unfold mirror, upd. rewrite Z.mod_0_l by lia. destruct (Z.eqb_spec 0 s); [lia|reflexivity]. }
    rewrite EV. change (zlen [0]) with 1.
    rewrite (mk_consume W (p + (s + 1)) _ 1) by lia.
    cbn [obind fst snd]. eexists. reflexivity.
  Qed.

  Lemma jump_spec ck c q0 q xs : q_data q0 = [] -> zlen (q_free q0) = cap ->
    qx_run ck c q0 jump (Some (q, xs)) -> xs = [OUnit; OUnit; OUnit; OBytes [9]].
  Proof.
    destruct jump_split as [_ Hs]. intros Hd Hf H. unfold jump in H.
    inversion H as [| |c0 q0' o os q1 x q2 xs1 N1 S1 R1|]; subst. clear H.
    inversion R1 as [| |c3 q0' o os q3 x3 q4 xs3 N3 S3 R3|]; subst. clear R1.
    inversion R3 as [| |c5 q0' o os q5 x5 q6 xs5 N5 S5 R5|]; subst. clear R3.
    inversion R5 as [| |c7 q0' o os q7 x7 q8 xs7 N7 S7 R7|]; subst. clear R5.
    inversion R7; subst. cbn [q_step] in S1, S3, S5, S7.
    destruct S1 as [-> ->], S3 as [-> ->], S5 as [-> ->], S7 as [-> ->].
    cbn [q_append q_remove q_data q_free]. rewrite Hd. cbn [app]. do 3 f_equal. f_equal. f_equal.
    assert (HL : zlen (ztake s (q_free q0)) = s) by (rewrite zlen_ztake by lia; lia).
    change (9 :: zdrop (s + zlen [9]) (q_free q0)) with ([9] ++ zdrop (s + zlen [9]) (q_free q0)).
    rewrite (ztake_app_r (s + 1)) by lia. rewrite zdrop_app_r by lia. rewrite HL.
    replace (s + 1 - s) with 1 by lia. rewrite Z.sub_diag. rewrite (zdrop_neg 0) by lia.
    reflexivity.
  Qed.

  Lemma turns_spec ck k : forall c q q'' xs, q_data q = [] -> zlen (q_free q) = cap ->
    qx_run ck c q (turns k ++ jump) (Some (q'', xs)) ->
    exists xs1, xs = xs1 ++ [OUnit; OUnit; OUnit; OBytes [9]].
  Proof.
    induction k as [|k IH]; intros c q q'' xs Hd Hf H.
    - exists []. cbn [turns app] in *. eapply jump_spec; eassumption.
    - cbn [turns app] in H.
      inversion H as [| |c0 q0' o os q1 x q2 xs1 N1 S1 R1|]; subst. clear H.
      inversion R1 as [| |c3 q0' o os q3 x3 q4 xs3 N3 S3 R3|]; subst. clear R1.
      cbn [q_step] in S1, S3. destruct S1 as [-> ->], S3 as [-> ->].
      apply IH in R3.
      + destruct R3 as [ys ->]. exists (OUnit :: OUnit :: ys). reflexivity.
      + cbn [q_append q_remove q_data q_free]. rewrite Hd. cbn [app].
        rewrite (ztake_all cap (q_free q)) by lia. apply zdrop_all. lia.
      + cbn [q_append q_remove q_data q_free]. rewrite Hd. cbn [app].
        rewrite (ztake_all cap (q_free q)) by lia. rewrite (ztake_all cap (q_free q)) by lia.
        rewrite (zdrop_all (zlen (q_free q))) by lia. exact Hf.
  Qed.

  Lemma ring_jump : exists os, Forall (rop_ok t) os /\
    ~ ring_replies t (t_checks t) 0 {| q_data := []; q_free := view (fun _ => 0) 0 cap |} (ring_make cap (fun _ => 0)) os.
  Proof.
    destruct jump_split as [HS Hs]. pose proof W_small as HW.
    assert (Hk : 0 <= W / cap) by (apply Z.div_pos; lia).
    set (k := Z.to_nat (W / cap)).
    assert (Ek : Z.of_nat k = W / cap) by (apply Z2Nat.id; exact Hk).
    clearbody k. exists (turns k ++ jump). split.
    - apply Forall_app. split.
      + clear Ek. induction k as [|k IH]; cbn [turns app]; [constructor|].
        do 2 (constructor; [unfold rop_ok, is_usize; lia|]). exact IH.
      + unfold jump. fold W in Hw. repeat constructor; try (unfold is_usize; fold W); try lia.
    - intros (res & Q & M).
      destruct (turns_run k 0) as [xs E]; [lia|rewrite Ek; unfold p in HS; lia|].
      rewrite Z.add_0_l, Ek in E. fold p in E.
      assert (Es : ring_make cap (fun _ => 0) = mk 0 0 (fun _ => 0)) by reflexivity.
      destruct jump_run as [r' EJ].
      assert (EA : ring_run t (ring_make cap (fun _ => 0)) (turns k ++ jump) =
        Ret (r', xs ++ [OUnit; OUnit; OUnit; OBytes [0]])).
      { rewrite run_app, Es, E. cbn [obind fst snd]. rewrite EJ. reflexivity. }
      destruct res as [[q ys]|]; [|rewrite M in EA; discriminate].
      destruct M as (r & ER). rewrite EA in ER. injection ER as <- <-.
      apply turns_spec in Q; [|reflexivity|cbn [q_free]; rewrite view_len; lia].
      destruct Q as [zs Q]. apply (f_equal (fun l => last l OUnit)) in Q.
      change [OUnit; OUnit; OUnit; OBytes [0]] with ([OUnit; OUnit; OUnit] ++ [OBytes [0]]) in Q.
      change [OUnit; OUnit; OUnit; OBytes [9]] with ([OUnit; OUnit; OUnit] ++ [OBytes [9]]) in Q.
      rewrite !app_assoc, !last_last in Q. discriminate Q.
  Qed.
  (** *** InfiniteRing *)
  Let imk (l w : Z) (m : Z -> byte) : iring := {| i_len := cap; i_rlen := l; i_wpos := w mod 2 ^ 64; i_mem := m |}.
  Fixpoint iturns (k : nat) : list irop := match k with O => [] | S k' => [IFeed cap; IConsume cap] ++ iturns k' end.
  Definition ijump : list irop := [IStore cap s [9]; IFeed (s + 1); IConsume s; IRead 1].

  Lemma imk_feed w m n : 0 <= n <= cap -> 0 <= w -> w + n <= W + 1 ->
    iring_feed t (imk 0 w m) n = Ret (imk n (w + n) m).
  Proof.
    intros H1 H2 H3. unfold iring_feed, iring_write_len, iring_write_capacity, imk. cbn [i_len i_rlen i_wpos i_mem].
    pose proof W_small as HW. pose proof Hw as Hw'. fold W in Hw'.
    unfold as_u64. rewrite (Z.mod_small (Z.min n cap)) by lia. rewrite (Z.mod_small n), (Z.mod_small cap) by lia.
    unfold add64. rewrite Z.min_l by lia. rewrite wrap_add_pos; [|lia|lia|].
    2:{ destruct (jump_room (w + n)) as [?|?]; [lia|left; lia|right; assumption]. }
    cbn [obind]. rewrite wrap_in by lia. cbn [obind]. do 2 f_equal. lia.
  Qed.

  Lemma imk_consume l w m n : 0 <= n <= l -> l <= cap ->
    iring_consume t (imk l w m) n = Ret (imk (l - n) w m).
  Proof.
    intros H1 H2. unfold iring_consume, iring_read_len, imk. cbn [i_len i_rlen i_wpos i_mem].
    pose proof W_small as HW. pose proof Hw as Hw'. fold W in Hw'.
    unfold as_usize. fold W. rewrite (Z.mod_small l) by lia. rewrite Z.min_l by lia.
    unfold as_u64. rewrite Z.mod_small by lia. unfold sub64. rewrite wrap_in by lia. reflexivity.
  Qed.

  Lemma iturns_run k : forall x, 0 <= x -> x + cap * Z.of_nat k <= W -> exists xs,
    iring_run t (imk 0 x (fun _ => 0)) (iturns k) = Ret (imk 0 (x + cap * Z.of_nat k) (fun _ => 0), xs).
  Proof.
    induction k as [|k IH]; intros x H0 H1.
    - exists []. cbn [iturns iring_run]. do 2 f_equal; f_equal; lia.
    - cbn [iturns app iring_run iring_step].
      rewrite (imk_feed x _ cap) by nia. cbn [obind fst snd].
      rewrite (imk_consume cap (x + cap) _ cap) by nia. cbn [obind fst snd]. rewrite Z.sub_diag.
      destruct (IH (x + cap)) as [xs E]; [lia|nia|]. rewrite E. cbn [obind fst snd].
      eexists. do 2 f_equal. f_equal; nia.
  Qed.

  Lemma ijump_run : exists r, iring_run t (imk 0 p (fun _ => 0)) ijump = Ret (r, [OUnit; OUnit; OUnit; OBytes [0]]).
  Proof.
    destruct jump_split as [HS Hs]. pose proof W_small as HW. pose proof Hw as Hw'. fold W in Hw'.
    assert (Hp : 0 <= p) by (unfold p; apply Z.mul_nonneg_nonneg; [lia|apply Z.div_pos; lia]).
    unfold ijump. cbn [iring_run iring_step].
    assert (E1 : iring_slice_store t (imk 0 p (fun _ => 0)) cap s [9] = Ret (imk 0 p (upd (fun _ => 0) s 9))).
    { unfold iring_slice_store, iring_write_slice, iring_write_offset, iring_write_len, iring_write_capacity.
      cbn [imk i_len i_wpos i_mem]. rewrite mk_urem. cbn [obind].
      unfold as_usize. fold W. rewrite W_mod. rewrite (Z.mod_small p W) by lia. rewrite p_mod.
      rewrite Z.min_id. unfold vslice.
      destruct (Z.leb_spec 0 0); [|lia]. destruct (Z.leb_spec 0 cap); [|lia].
      destruct (Z.leb_spec (0 + cap) (2 * cap)); [|lia]. cbn [andb obind].
      rewrite view_len. destruct (Z.leb_spec 0 s); [|lia].
      change (zlen [9]) with 1. destruct (Z.leb_spec (s + 1) (Z.max 0 cap)); [|lia]. cbn [andb].
      unfold imk. do 2 f_equal. cbn [vstore]. rewrite Z.add_0_l, Z.mod_small by lia. reflexivity. }
    rewrite E1. cbn [obind fst snd].
    rewrite (imk_feed p _ (s + 1)) by lia. cbn [obind fst snd].
    rewrite (imk_consume (s + 1) (p + (s + 1)) _ s) by lia. cbn [obind fst snd].
    replace (s + 1 - s) with 1 by lia. replace (p + (s + 1)) with (W + 1) by lia.
    unfold iring_read, iring_read_slice, iring_read_offset, iring_read_len.
    cbn [imk i_len i_wpos i_rlen i_mem].
    assert (ES : sub64 (E:=io_error) t ((W + 1) mod 2 ^ 64) 1 = Ret (W mod 2 ^ 64)).
    { unfold sub64. rewrite wrap_mod; [|lia|].
      - rewrite Zminus_mod_idemp_l. do 2 f_equal. lia.
      - destruct (jump_room (W + 1)) as [H|H]; [lia|left|right; exact H].
        rewrite Z.mod_small by lia. lia. }
    rewrite ES. cbn [obind]. rewrite mk_urem. cbn [obind].
    unfold as_usize. fold W. rewrite W_mod. rewrite Z.mod_same by lia. rewrite Z.mod_0_l by lia.
    rewrite (Z.mod_small 1) by lia. rewrite Z.min_id. unfold vslice.
    destruct (Z.leb_spec 0 0); [|lia]. destruct (Z.leb_spec 0 1); [|lia].
    destruct (Z.leb_spec (0 + 1) (2 * cap)); [|lia]. cbn [andb obind].
    assert (EV : view (mirror (upd (fun _ => 0) s 9) cap) 0 1 = [0]).
    { change (view (mirror (upd (fun _ : Z => 0) s 9) cap) 0 1) with [mirror (upd (fun _ : Z => 0) s 9) cap 0].
      unfold mirror, upd. rewrite Z.mod_0_l by lia. destruct (Z.eqb_spec 0 s); [lia|reflexivity]. }
    rewrite EV. change (zlen [0]) with 1.
    rewrite (imk_consume 1 (W + 1) _ 1) by lia.
    cbn [obind fst snd]. eexists. reflexivity.
  Qed.

  Lemma ijump_spec ck c q0 q xs : zlen (lq_tape q0) = cap -> lq_len q0 = 0 ->
    lqx_run ck c q0 ijump (Some (q, xs)) -> xs = [OUnit; OUnit; OUnit; OBytes [9]].
  Proof.
    destruct jump_split as [_ Hs]. intros Hf Hd H. unfold ijump in H. revert Hf Hd.
    inversion H as [| |c0 q0' o os q1 x q2 xs1 N1 S1 R1|]; subst. clear H.
    inversion R1 as [| |c3 q0' o os q3 x3 q4 xs3 N3 S3 R3|]; subst. clear R1.
    inversion R3 as [| |c5 q0' o os q5 x5 q6 xs5 N5 S5 R5|]; subst. clear R3.
    inversion R5 as [| |c7 q0' o os q7 x7 q8 xs7 N7 S7 R7|]; subst. clear R5.
    inversion R7; subst. intros Hf Hd. unfold lq_step in S1, S3, S5, S7. cbn zeta in S1, S3, S5, S7.
    destruct S1 as [-> ->], S3 as [-> ->], S5 as [-> ->], S7 as [-> ->].
    do 3 f_equal. f_equal. f_equal.
    assert (HL : zlen (ztake s (lq_tape q0)) = s) by (rewrite zlen_ztake by lia; lia).
    match goal with |- context [lq_push ?x _] => set (q1 := x) end.
    assert (HT1 : zlen (lq_tape q1) = cap).
    { cbn [q1 lq_tape]. rewrite !zlen_app, HL. change (zlen [9]) with 1. rewrite zlen_zdrop by lia. lia. }
    assert (HB : ztake (s + 1) (lq_tape q1) = ztake s (lq_tape q0) ++ [9]).
    { cbn [q1 lq_tape]. rewrite (ztake_app_r (s + 1)) by lia. rewrite HL.
      replace (s + 1 - s) with 1 by lia. f_equal. }
    rewrite HB. set (b := ztake s (lq_tape q0) ++ [9]) in *.
    assert (HbL : zlen b = s + 1) by (unfold b; rewrite zlen_app, HL; reflexivity).
    assert (HD1 : lq_data q1 = []).
    { apply zlen_0. rewrite lq_data_len; cbn [q1 lq_len]; [exact Hd|]. fold q1. rewrite HT1, Hd. lia. }
    assert (HP : 0 <= lq_len (lq_push q1 b) <= zlen (lq_tape (lq_push q1 b))).
    { cbn [lq_push lq_len lq_tape]. rewrite lastn_len by lia. rewrite zlen_app.
      cbn [q1 lq_len]. fold q1. rewrite HT1, Hd, HbL. lia. }
    rewrite lq_data_drop by (exact HP || lia). rewrite lq_data_push by (rewrite HT1; cbn [q1 lq_len]; lia).
    rewrite HD1. cbn [app]. rewrite lastn_all by lia. unfold b.
    rewrite zdrop_app_r by lia. rewrite HL, Z.sub_diag, (zdrop_neg 0) by lia. reflexivity.
  Qed.

  Lemma iturns_spec ck k : forall c q q'' xs, zlen (lq_tape q) = cap -> lq_len q = 0 ->
    lqx_run ck c q (iturns k ++ ijump) (Some (q'', xs)) ->
    exists xs1, xs = xs1 ++ [OUnit; OUnit; OUnit; OBytes [9]].
  Proof.
    induction k as [|k IH]; intros c q q'' xs Hf Hd H.
    - exists []. cbn [iturns app] in *. eapply ijump_spec; eassumption.
    - cbn [iturns app] in H. revert Hf Hd.
      inversion H as [| |c0 q0' o os q1 x q2 xs1 N1 S1 R1|]; subst. clear H.
      inversion R1 as [| |c3 q0' o os q3 x3 q4 xs3 N3 S3 R3|]; subst. clear R1. intros Hf Hd.
      unfold lq_step in S1, S3. cbn zeta in S1, S3. destruct S1 as [-> ->], S3 as [-> ->].
      apply IH in R3.
      + destruct R3 as [ys ->]. exists (OUnit :: OUnit :: ys). reflexivity.
      + cbn [lq_drop lq_push lq_tape]. rewrite lastn_len by lia. rewrite zlen_app.
        pose proof (zlen_nonneg (ztake cap (lq_tape q))). lia.
      + cbn [lq_drop lq_push lq_len]. lia.
  Qed.

  Lemma irun_app os1 : forall r os2, iring_run t r (os1 ++ os2) =
    let* p := iring_run t r os1 in let* q := iring_run t (fst p) os2 in Ret (fst q, snd p ++ snd q).
  Proof.
    induction os1 as [|o os1 IH]; intros r os2; cbn [app iring_run obind fst snd].
    - destruct (iring_run t r os2) as [[]| | | |]; reflexivity.
    - destruct (iring_step t r o) as [q| | | |]; cbn [obind]; try reflexivity. rewrite IH.
      destruct (iring_run t (fst q) os1) as [p1| | | |]; cbn [obind fst snd]; try reflexivity.
      destruct (iring_run t (fst p1) os2) as [p2| | | |]; reflexivity.
  Qed.

  Lemma iring_jump : exists os, Forall (irop_ok t cap) os /\
    ~ iring_replies t (t_checks t) 0 {| lq_tape := view (fun _ => 0) 0 cap; lq_len := 0 |} (iring_make cap (fun _ => 0)) os.
  Proof.
    destruct jump_split as [HS Hs]. pose proof W_small as HW. pose proof Hw as Hw'. fold W in Hw'.
    assert (Hk : 0 <= W / cap) by (apply Z.div_pos; lia).
    set (k := Z.to_nat (W / cap)).
    assert (Ek : Z.of_nat k = W / cap) by (apply Z2Nat.id; exact Hk).
    clearbody k. exists (iturns k ++ ijump). split.
    - apply Forall_app. split.
      + clear Ek. induction k as [|k IH]; cbn [iturns app]; [constructor|].
        do 2 (constructor; [unfold irop_ok, is_usize; lia|]). exact IH.
      + unfold ijump. repeat constructor; try (unfold is_usize; fold W); try lia.
    - intros (res & Q & M).
      destruct (iturns_run k 0) as [xs E]; [lia|rewrite Ek; unfold p in HS; lia|].
      rewrite Z.add_0_l, Ek in E. fold p in E.
      assert (Es : iring_make cap (fun _ => 0) = imk 0 0 (fun _ => 0)) by reflexivity.
      destruct ijump_run as [r' EJ].
      assert (EA : iring_run t (iring_make cap (fun _ => 0)) (iturns k ++ ijump) =
        Ret (r', xs ++ [OUnit; OUnit; OUnit; OBytes [0]])).
      { rewrite irun_app, Es, E. cbn [obind fst snd]. rewrite EJ. reflexivity. }
      destruct res as [[q ys]|]; [|rewrite M in EA; discriminate].
      destruct M as (r & ER). rewrite EA in ER. injection ER as <- <-.
      apply iturns_spec in Q; [|cbn [lq_tape]; rewrite view_len; lia|reflexivity].
      destruct Q as [zs Q]. apply (f_equal (fun l => last l OUnit)) in Q.
      change [OUnit; OUnit; OUnit; OBytes [0]] with ([OUnit; OUnit; OUnit] ++ [OBytes [0]]) in Q.
      change [OUnit; OUnit; OUnit; OBytes [9]] with ([OUnit; OUnit; OUnit] ++ [OBytes [9]]) in Q.
      rewrite !app_assoc, !last_last in Q. discriminate Q.
  Qed.
End Jump.

Lemma exact_dec t cap : exact_positions t cap \/ ~ exact_positions t cap.
Proof.
  unfold exact_positions. destruct (Zdivide_dec cap (2 ^ t_bits t)) as [D|D]; [left; left; exact D|].
  destruct (Z.eq_dec (t_bits t) 64) as [B|B]; [|right; intros [?|[? ?]]; auto].
  destruct (t_checks t); [left; right; auto|right; intros [?|[? ?]]; auto; discriminate].
Qed.

Lemma ring_answers_iff t cap : good_target t -> 0 < cap -> 2 * cap < 2 ^ t_bits t ->
  (exact_positions t cap <-> forall m os, Forall (rop_ok t) os -> ring_answers t cap m os).
Proof.
  intros Hg Hc Hw. split.
  - intros X m os Ho. exact (answers t Hg cap m os Hc Hw X Ho).
  - intros A. destruct (exact_dec t cap) as [D|D]; [exact D|]. exfalso.
    destruct (ring_jump t Hg cap Hc Hw D) as (os & Ho & N). exact (N (answers_reply _ _ _ _ (A _ os Ho))).
Qed.

Lemma iring_answers_iff t cap : good_target t -> 0 < cap -> 2 * cap < 2 ^ t_bits t ->
  (exact_positions t cap <-> forall m os, Forall (irop_ok t cap) os -> iring_answers t cap m os).
Proof.
  intros Hg Hc Hw. split.
  - intros X m os Ho. exact (ianswers t Hg cap m os Hc Hw X Ho).
  - intros A. destruct (exact_dec t cap) as [D|D]; [exact D|]. exfalso.
    destruct (iring_jump t Hg cap Hc Hw D) as (os & Ho & N). exact (N (ianswers_reply _ _ _ _ (A _ os Ho))).
Qed.
