(** Statements derived from the ring refinements, one per property. *)
From Coq Require Import Lia Znumtheory.
From Verif Require Import Base ErrorModel RingSpec RingModel SeqProofs SizeProofs
  RingProofs IRingProofs RingTheorems RingWeak.

(** ** Which histories are covered, in simple terms *)
Fixpoint rops_weight (cap : Z) (os : list rop) : Z :=
  match os with [] => 0 | o :: os' => rop_weight cap o + rops_weight cap os' end.
Fixpoint irops_weight (cap : Z) (os : list irop) : Z :=
  match os with [] => 0 | o :: os' => irop_weight cap o + irops_weight cap os' end.

Lemma rop_weight_nonneg t cap o : 0 <= cap -> rop_ok t o -> 0 <= rop_weight cap o.
Proof.
  intros Hc Ho. destruct o; cbn [rop_weight rop_ok] in *; unfold is_usize in *;
    try (pose proof (zlen_nonneg b)); lia.
Qed.
Lemma rops_weight_nonneg t cap os : 0 <= cap -> Forall (rop_ok t) os -> 0 <= rops_weight cap os.
Proof.
  intros Hc H. induction H as [|o os Ho H IH]; cbn [rops_weight]; [lia|].
  pose proof (rop_weight_nonneg t cap o Hc Ho). lia.
Qed.
Lemma irop_weight_nonneg t cap o : 0 <= cap -> irop_ok t cap o -> 0 <= irop_weight cap o.
Proof.
  intros Hc Ho. destruct o; cbn [irop_weight irop_ok] in *; unfold is_usize in *;
    try (pose proof (zlen_nonneg b)); lia.
Qed.
Lemma irops_weight_nonneg t cap os : 0 <= cap -> Forall (irop_ok t cap) os -> 0 <= irops_weight cap os.
Proof.
  intros Hc H. induction H as [|o os Ho H IH]; cbn [irops_weight]; [lia|].
  pose proof (irop_weight_nonneg t cap o Hc Ho). lia.
Qed.

Lemma pos_ok_mono t cap X Y : pos_ok t cap Y -> X <= Y -> pos_ok t cap X.
Proof. intros [A B] H. split; [destruct A|destruct B]; auto; left; lia. Qed.

Lemma history_ok_sum t cap os : forall acc, 0 <= cap -> 0 <= acc -> Forall (rop_ok t) os ->
  pos_ok t cap (acc + rops_weight cap os) -> history_ok t acc cap os.
Proof.
  induction os as [|o os IH]; intros acc Hc Ha Ho Hp; [exact I|].
  inversion Ho as [|? ? Ho1 Ho2]; subst. cbn [history_ok rops_weight] in *.
  pose proof (rop_weight_nonneg t cap o Hc Ho1). pose proof (rops_weight_nonneg t cap os Hc Ho2).
  split; [exact Ho1|]. split; [eapply pos_ok_mono; [exact Hp|lia]|].
  assert (Hn : 0 <= next_total acc cap o <= acc + rop_weight cap o)
    by (destruct o; cbn [next_total rop_weight] in *; lia).
  apply IH; try assumption; try lia. eapply pos_ok_mono; [exact Hp|lia].
Qed.

Lemma ihistory_ok_sum t cap os : forall acc, 0 <= cap -> 0 <= acc -> Forall (irop_ok t cap) os ->
  pos_ok t cap (acc + irops_weight cap os) -> ihistory_ok t acc cap os.
Proof.
  induction os as [|o os IH]; intros acc Hc Ha Ho Hp; [exact I|].
  inversion Ho as [|? ? Ho1 Ho2]; subst. cbn [ihistory_ok irops_weight] in *.
  pose proof (irop_weight_nonneg t cap o Hc Ho1). pose proof (irops_weight_nonneg t cap os Hc Ho2).
  split; [exact Ho1|]. split; [eapply pos_ok_mono; [exact Hp|lia]|].
  apply IH; try assumption; try lia. eapply pos_ok_mono; [exact Hp|lia].
Qed.

(** Histories a ring of [cap] bytes handles exactly: on 64-bit targets up to
    2^64 bytes in all; on 32-bit targets up to 2^32 bytes, or any amount when
    the capacity divides 2^32. *)
Lemma pos_ok_64 t cap X : t_bits t = 64 -> X < 2 ^ 64 -> pos_ok t cap X.
Proof. intros Hb HX. split; left; [exact HX|rewrite Hb; exact HX]. Qed.

Lemma pow2_divides t cap : 32 <= t_bits t -> pow2 cap -> cap < 2 ^ t_bits t -> (cap | 2 ^ t_bits t).
Proof.
  intros Hb (k & Hk & ->) Hc. apply Z.pow_lt_mono_r_iff in Hc; try lia.
  exists (2 ^ (t_bits t - k)). rewrite <- Z.pow_add_r by lia. f_equal. lia.
Qed.

Lemma pos_ok_pow2 t cap X : 32 <= t_bits t -> pow2 cap -> cap < 2 ^ t_bits t ->
  X < 2 ^ 64 \/ t_checks t = false -> pos_ok t cap X.
Proof. intros Hb Hp Hc HX. split; [exact HX|]. right. apply pow2_divides; assumption. Qed.

(** ** C34 *)
Definition q_empty (cap : Z) (m : Z -> byte) : queue := {| q_data := []; q_free := view m 0 cap |}.

Definition ring_refines (t : target) (cap : Z) (m : Z -> byte) (os : list rop) : Prop :=
  exists res, q_run (q_empty cap m) os res /\
    match res with
    | Some (q, xs) => exists r, ring_run t (ring_make cap m) os = Ret (r, xs) /\ ring_shows t cap r q
    | None => ring_run t (ring_make cap m) os = Panic
    end.

Lemma refines_64 t cap m os : good_target t -> t_bits t = 64 -> 0 < cap -> 2 * cap < 2 ^ 64 ->
  Forall (rop_ok t) os -> rops_weight cap os < 2 ^ 64 -> ring_refines t cap m os.
Proof.
  intros Hg Hb Hc Hw Ho Hs. apply (ring_queue t Hg); [exact Hc|rewrite Hb; exact Hw|].
  apply history_ok_sum; try assumption; try lia. apply pos_ok_64; [exact Hb|]. lia.
Qed.

Lemma refines_pow2 t cap m os : good_target t -> pow2 cap -> 2 * cap < 2 ^ t_bits t ->
  Forall (rop_ok t) os -> rops_weight cap os < 2 ^ 64 \/ t_checks t = false -> ring_refines t cap m os.
Proof.
  intros Hg Hp Hw Ho Hs. pose proof (good_bits t Hg) as Hb.
  assert (Hc : 0 < cap) by (destruct Hp as (k & Hk & ->); apply Z.pow_pos_nonneg; lia).
  apply (ring_queue t Hg); [exact Hc|exact Hw|].
  apply history_ok_sum; try assumption; try lia. apply pos_ok_pow2; try assumption; lia.
Qed.

Lemma fifo t cap m os r xs : good_target t -> 0 < cap -> 2 * cap < 2 ^ t_bits t ->
  history_ok t 0 cap os -> ring_run t (ring_make cap m) os = Ret (r, xs) ->
  Forall plain os -> Forall no_error xs ->
  exists rest, ring_read_slice t r (umax t) = Ret rest /\
    flat_map bytes_in (combine os xs) = flat_map bytes_out (combine os xs) ++ rest.
Proof.
  intros Hg Hc Hw Hh E Hp Hn.
  destruct (ring_queue t Hg cap m os Hc Hw Hh) as (res & Q & M).
  destruct res as [[q ys]|]; [|rewrite M in E; discriminate].
  destruct M as (r' & E' & S). rewrite E' in E. injection E as -> ->.
  exists (q_data q). split.
  - destruct S as (_ & L & _ & _ & R & _).
    rewrite R by (apply is_usize_umax, good_bits, Hg). f_equal. apply ztake_all.
    pose proof (zlen_nonneg (q_free q)). pose proof (zlen_nonneg (q_data q)). unfold umax. lia.
  - pose proof (q_fifo os _ _ _ Q Hp Hn) as F. exact F.
Qed.

(** ** One more call on a reached ring

    [room]: the stream position still has room for [n] more bytes. *)
Definition room (t : target) (cap : Z) (os : list rop) (n : Z) : Prop :=
  pos_ok t cap (total_after 0 cap os + n).
Definition iroom (t : target) (cap : Z) (os : list irop) (n : Z) : Prop :=
  pos_ok t cap (itotal_after 0 cap os + n).

Section C.
  Variable t : target.
  Hypothesis Hg : good_target t.
  Let Hb : 32 <= t_bits t <= 64 := good_bits t Hg.

  Lemma reached_call cap os r o : ring_reached t cap os r -> rop_ok t o ->
    rop_weight cap o = 0 \/ room t cap os (rop_weight cap o) ->
    exists q, ring_shows t cap r q /\
    ((q_panics q o /\ ring_step t r o = Panic) \/
     (~ q_panics q o /\ exists r' x q', ring_step t r o = Ret (r', x) /\ q_step q o q' x /\
       ring_shows t cap r' q')).
  Proof.
    intros H Ho Hr. destruct (reached_inv t Hg cap os r H) as (T & R & I & L & B).
    exists (absq r T R). split; [rewrite <- L; apply (inv_shows t Hg), I|].
    assert (Hp : pos_ok t (r_len r) (T + rop_weight (r_len r) o)).
    { rewrite L. destruct Hr as [Hr|Hr].
      - rewrite Hr, Z.add_0_r, <- L. destruct I; assumption.
      - eapply pos_ok_mono; [exact Hr|lia]. }
    destruct (step_sim t Hb r T R o T I (Z.le_refl _) Ho Hp)
      as [Hpan|(Hn & r' & x & T' & R' & E & I' & _ & S & L')]; [left; exact Hpan|].
    right. split; [exact Hn|]. exists r', x, (absq r' T' R'). split; [exact E|].
    split; [exact S|]. rewrite <- L, <- L'. apply (inv_shows t Hg), I'.
  Qed.

  Lemma shows_data cap r q : ring_shows t cap r q -> 2 * cap < 2 ^ t_bits t ->
    ring_read_slice t r (umax t) = Ret (q_data q) /\
    ring_write_slice t r (umax t) = Ret (q_free q).
  Proof.
    intros (_ & L & _ & _ & R & W) Hw.
    rewrite R, W by (apply is_usize_umax; exact Hb).
    pose proof (zlen_nonneg (q_free q)). pose proof (zlen_nonneg (q_data q)).
    rewrite !ztake_all by (unfold umax; lia). split; reflexivity.
  Qed.

  (** C36 *)
  Lemma store_private cap os r max i d : ring_reached t cap os r ->
    is_usize t max -> is_usize t i ->
    exists data w, ring_read_slice t r (umax t) = Ret data /\ ring_write_slice t r (umax t) = Ret w /\
    match ring_slice_store t r max i d with
    | Ret r' =>
      i + zlen d <= Z.min (zlen w) max /\
      ring_read_slice t r' (umax t) = Ret data /\
      ring_write_slice t r' (umax t) = Ret (ztake i w ++ d ++ zdrop (i + zlen d) w)
    | Panic => Z.min (zlen w) max < i + zlen d
    | _ => False
    end.
  Proof.
    intros H Hm Hi. pose proof H as (_ & Hw & _).
    destruct (reached_call cap os r (RStore max i d) H) as (q & S & C);
      [split; assumption|left; reflexivity|].
    destruct (shows_data cap r q S Hw) as [ED EW].
    exists (q_data q), (q_free q). split; [exact ED|]. split; [exact EW|].
    cbn [ring_step q_panics q_step] in C. unfold is_usize in *.
    destruct C as [[Hp E]|(Hp & r' & x & q' & E & [-> ->] & S')].
    - destruct (ring_slice_store t r max i d); cbn [obind] in E; try discriminate E. lia.
    - destruct (ring_slice_store t r max i d) as [r1| | | |]; cbn [obind] in E; try discriminate E.
      injection E as ->. split; [lia|].
      destruct (shows_data cap r' _ S' Hw) as [ED' EW']. rewrite ED', EW'. split; reflexivity.
  Qed.

  (** C37 *)
  Lemma write_all_claim cap os r b : ring_reached t cap os r -> room t cap os (Z.min (zlen b) cap) ->
    exists data wl r' res data' wl',
      ring_read_slice t r (umax t) = Ret data /\ ring_write_len t r = Ret wl /\
      ring_write_all t r b = Ret (r', res) /\
      ring_read_slice t r' (umax t) = Ret data' /\ ring_write_len t r' = Ret wl' /\
      ((zlen b <= wl /\ res = None /\ data' = data ++ b /\ wl' = wl - zlen b) \/
       (wl < zlen b /\ res = Some (IoSimple WriteZero) /\ data' = data ++ ztake wl b /\ wl' = 0)).
  Proof.
    intros H Hr. pose proof H as (_ & Hw & _).
    destruct (reached_call cap os r (RWriteAll b) H) as (q & S & C); [exact Logic.I|right; exact Hr|].
    destruct C as [[[] _]|(_ & r' & x & q' & E & [-> ->] & S')].
    destruct (shows_data cap r q S Hw) as [ED _]. destruct (shows_data cap r' _ S' Hw) as [ED' _].
    cbn [ring_step] in E. destruct (ring_write_all t r b) as [[r1 res]| | | |] eqn:EA;
      cbn [obind fst snd] in E; try discriminate E. injection E as -> E.
    pose proof S as (_ & _ & _ & WL & _). pose proof S' as (_ & _ & _ & WL' & _).
    exists (q_data q), (zlen (q_free q)), r', res, (q_data q ++ ztake (zlen (q_free q)) b), (zlen (zdrop (zlen (ztake (zlen (q_free q)) b)) (q_free q))).
    split; [exact ED|]. split; [exact WL|]. split; [reflexivity|].
    split; [exact ED'|]. split; [exact WL'|].
    pose proof (zlen_nonneg (q_free q)). pose proof (zlen_nonneg b).
    rewrite zlen_ztake by lia. rewrite zlen_zdrop by lia.
    destruct (Z.leb_spec (zlen b) (zlen (q_free q))).
    - left. destruct res; [discriminate E|]. rewrite ztake_all by lia.
      split; [lia|]. split; [reflexivity|]. split; [reflexivity|lia].
    - right. destruct res as [e|]; [|discriminate E]. injection E as ->.
      split; [lia|]. split; [reflexivity|]. split; [reflexivity|lia].
  Qed.

  (** C39 *)
  Lemma read_until_claim cap os r c : ring_reached t cap os r ->
    exists data r' got,
      ring_read_slice t r (umax t) = Ret data /\ ring_read_until t r c = Ret (r', got) /\
      ring_read_slice t r' (umax t) = Ret (zdrop (zlen got) data) /\
      got ++ zdrop (zlen got) data = data /\
      (exists l, (got = l ++ [c] \/ (got = l /\ l = data)) /\ ~ In c l).
  Proof.
    intros H. pose proof H as (_ & Hw & _).
    destruct (reached_call cap os r (RUntil c) H) as (q & S & C); [exact Logic.I|left; reflexivity|].
    destruct C as [[[] _]|(_ & r' & x & q' & E & Q & S')]. cbn [q_step] in Q.
    destruct Q as [-> ->].
    destruct (shows_data cap r q S Hw) as [ED _]. destruct (shows_data cap r' _ S' Hw) as [ED' _].
    cbn [ring_step] in E. destruct (ring_read_until t r c) as [[r1 got]| | | |];
      cbn [obind fst snd] in E; try discriminate E. injection E as -> ->.
    exists (q_data q), r', (through c (q_data q)).
    split; [exact ED|]. split; [reflexivity|]. split; [exact ED'|]. split; [apply through_prefix|].
    clear. induction (q_data q) as [|b l IH].
    - exists []. split; [right; split; reflexivity|intros []].
    - cbn [through]. destruct (Z.eqb_spec b c) as [->|Hne].
      + exists []. split; [left; reflexivity|intros []].
      + destruct IH as (l' & [-> |[-> ->]] & Hn).
        * exists (b :: l'). split; [left; reflexivity|]. intros [H|H]; [congruence|tauto].
        * exists (b :: l). split; [right; split; reflexivity|]. intros [H|H]; [congruence|tauto].
  Qed.

  (** C40 *)
  Lemma bytes_claim cap os r : ring_reached t cap os r ->
    exists rd wr,
      ring_chunk t r = Ret rd /\ ring_remaining t r = Ret (zlen rd) /\
      ring_chunk_mut t r = Ret wr /\ ring_remaining_mut t r = Ret (zlen wr) /\
      (forall n, 0 <= n <= zlen rd -> exists r', ring_advance t r n = Ret r' /\
         ring_chunk t r' = Ret (zdrop n rd)) /\
      (forall d, zlen d <= zlen wr -> room t cap os (zlen d) ->
         exists r' r'', ring_slice_store t r (umax t) 0 d = Ret r' /\
           ring_advance_mut t r' (zlen d) = Ret r'' /\ ring_chunk t r'' = Ret (rd ++ d)) /\
      (forall d, if zlen d <=? zlen wr
         then room t cap os (zlen d) ->
              exists r', ring_put_slice t r d = Ret r' /\ ring_chunk t r' = Ret (rd ++ d) /\
                         ring_remaining_mut t r' = Ret (zlen wr - zlen d)
         else ring_put_slice t r d = Panic).
  Proof.
    intros H. pose proof H as (Hc & Hw & _).
    destruct (reached_inv t Hg cap os r H) as (T & R & I & L & B).
    set (q := absq r T R).
    assert (S : ring_shows t cap r q) by (rewrite <- L; apply (inv_shows t Hg), I).
    destruct (shows_data cap r q S Hw) as [ED EW]. pose proof S as (_ & HL & RL & WL & _).
    pose proof (zlen_nonneg (q_free q)) as HF0. pose proof (zlen_nonneg (q_data q)) as HD0.
    exists (q_data q), (q_free q). split; [exact ED|]. split; [exact RL|]. split; [exact EW|].
    split; [exact WL|].
    assert (Huniq : forall q', ring_shows t cap r q' -> q' = q)
      by (intros q' Hq'; exact (shows_unique t Hg cap r q' q Hq' S)).
    split; [|split].
    - intros n Hn. destruct (reached_call cap os r (RConsume n) H) as (q0 & S0 & C);
        [cbn; unfold is_usize; lia|left; reflexivity|].
      rewrite (Huniq q0 S0) in C. destruct C as [[[] _]|(_ & r' & x & q' & E & [-> ->] & S')].
      cbn [ring_step] in E. unfold ring_advance.
      destruct (ring_consume t r n); cbn [obind] in E; try discriminate E. injection E as ->.
      exists r'. split; [reflexivity|]. apply (shows_data cap r' _ S' Hw).
    - intros d Hd Hr. pose proof (zlen_nonneg d) as Hd0.
      destruct (store_feed t Hb r T R (umax t) d (zlen d) I) as (r2 & E & I2 & A2 & L2).
      { unfold umax. lia. }
      { reflexivity. }
      { unfold q in *. rewrite (absq_free_len t Hb r T R I) in *. unfold umax. lia. }
      { rewrite L. eapply pos_ok_mono; [exact Hr|]. lia. }
      destruct (ring_slice_store t r (umax t) 0 d) as [r1| | | |]; cbn [obind] in E; try discriminate E.
      exists r1, r2. split; [reflexivity|]. split; [exact E|].
      assert (S2 : ring_shows t cap r2 (absq r2 (T + zlen d) R)).
      { rewrite <- L, <- L2. apply (inv_shows t Hg), I2. }
      unfold ring_chunk. destruct (shows_data cap r2 _ S2 Hw) as [E2 _]. rewrite E2.
      rewrite A2. reflexivity.
    - intros d. pose proof (zlen_nonneg d) as Hd0. destruct (Z.leb_spec (zlen d) (zlen (q_free q))).
      + intros Hr. destruct (reached_call cap os r (RPut d) H) as (q0 & S0 & C); [exact Logic.I|right|].
        { cbn [rop_weight]. rewrite Z.min_l by lia. exact Hr. }
        rewrite (Huniq q0 S0) in C. destruct C as [[Hp _]|(_ & r' & x & q' & E & [-> ->] & S')].
        { cbn [q_panics] in Hp. lia. }
        cbn [ring_step] in E. destruct (ring_put_slice t r d); cbn [obind] in E; try discriminate E.
        injection E as ->. exists r'. split; [reflexivity|].
        destruct (shows_data cap r' _ S' Hw) as [E2 _]. split; [exact E2|].
        destruct S' as (_ & _ & _ & W' & _). unfold ring_remaining_mut. rewrite W'.
        cbn [q_append q_free]. rewrite zlen_zdrop by lia. f_equal. lia.
      + unfold ring_put_slice, ring_remaining_mut. rewrite WL. cbn [obind].
        destruct (Z.ltb_spec (zlen (q_free q)) (zlen d)); [reflexivity|lia].
  Qed.

  (** C38 *)
  Lemma clear_claim cap os r os2 m2 : ring_reached t cap os r -> Forall no_feed os2 ->
    history_ok t 0 cap os2 ->
    ring_read_len t (ring_clear r) = Ret 0 /\ ring_write_len t (ring_clear r) = Ret cap /\
    match ring_run t (ring_clear r) os2, ring_run t (ring_make cap m2) os2 with
    | Ret (_, xs), Ret (_, ys) => xs = ys
    | Panic, Panic => True
    | _, _ => False
    end.
  Proof.
    intros H Hn Hh. pose proof H as (Hc & Hw & _).
    destruct (reached_inv t Hg cap os r H) as (T & R & I & L & _).
    pose proof (make_inv t Hb cap (r_mem r) Hc ltac:(lia)) as I0.
    assert (Hcl : ring_clear r = ring_make cap (r_mem r)) by (unfold ring_clear, ring_make; rewrite L; reflexivity).
    rewrite Hcl.
    assert (S0 : ring_shows t cap (ring_make cap (r_mem r)) (absq (ring_make cap (r_mem r)) 0 0))
      by (apply (inv_shows t Hg _ _ _ I0)).
    split; [|split].
    - destruct S0 as (_ & _ & E & _). exact E.
    - destruct S0 as (_ & _ & _ & E & _). rewrite E.
      rewrite (absq_free_len t Hb _ _ _ I0). cbn [ring_make r_len]. f_equal. lia.
    - destruct (ring_queue t Hg cap (r_mem r) os2 Hc Hw Hh) as (res1 & Q1 & M1).
      destruct (ring_queue t Hg cap m2 os2 Hc Hw Hh) as (res2 & Q2 & M2).
      assert (Hs : option_map snd res1 = option_map snd res2).
      { eapply same_q_run; [|exact Hn|exact Q1|exact Q2].
        split; [reflexivity|]. cbn [q_free]. rewrite !view_len. reflexivity. }
      destruct res1 as [[q1 xs1]|], res2 as [[q2 xs2]|]; cbn in Hs; try discriminate Hs.
      + destruct M1 as (r1 & -> & _), M2 as (r2 & -> & _). congruence.
      + rewrite M1, M2. exact Logic.I.
  Qed.

  (** ** InfiniteRing *)
  Lemma ireached_call cap os r o : iring_reached t cap os r -> irop_ok t cap o ->
    irop_weight cap o = 0 \/ iroom t cap os (irop_weight cap o) ->
    exists q, iring_shows t cap r q /\
    ((lq_panics q o /\ iring_step t r o = Panic) \/
     (~ lq_panics q o /\ exists r' x q', iring_step t r o = Ret (r', x) /\ lq_step q o q' x /\
       iring_shows t cap r' q')).
  Proof.
    intros H Ho Hr. destruct (ireached_inv t Hg cap os r H) as (T & I & L & B).
    exists (abst r T). split; [rewrite <- L; apply (iinv_shows t Hg), I|].
    rewrite <- L in Ho, Hr.
    assert (Hp : pos_ok t (i_len r) (T + irop_weight (i_len r) o)).
    { destruct Hr as [Hr|Hr].
      - rewrite Hr, Z.add_0_r. destruct I; assumption.
      - unfold iroom in Hr. eapply pos_ok_mono; [exact Hr|]. rewrite L in *. lia. }
    destruct (istep_sim t Hb r T o T I (Z.le_refl _) Ho Hp)
      as [Hpan|(Hn & r' & x & T' & E & I' & _ & S & L')]; [left; exact Hpan|].
    right. split; [exact Hn|]. exists r', x, (abst r' T'). split; [exact E|].
    split; [exact S|]. rewrite <- L, <- L'. apply (iinv_shows t Hg), I'.
  Qed.

  Lemma ishows_data cap r q : iring_shows t cap r q -> 2 * cap < 2 ^ t_bits t ->
    iring_read_slice t r (umax t) = Ret (lq_data q).
  Proof.
    intros (_ & _ & HT & HL & RL & R & _) Hw.
    rewrite R by (apply is_usize_umax; exact Hb). f_equal. apply ztake_all.
    rewrite lq_data_len by lia. unfold umax. lia.
  Qed.

  Lemma iring_simple cap m os : 0 < cap -> 2 * cap < 2 ^ t_bits t -> ihistory_ok t 0 cap os ->
    Forall splain os ->
    exists r, iring_run t (iring_make cap m) os = Ret (r, snd (s_run cap [] os)) /\
      iring_read_slice t r (umax t) = Ret (fst (s_run cap [] os)) /\
      iring_read_len t r = zlen (fst (s_run cap [] os)) /\ iring_write_len r = cap.
  Proof.
    intros Hc Hw Hh Hp.
    destruct (iring_queue t Hg cap m os Hc Hw Hh) as (res & Q & M).
    assert (Ht0 : zlen (lq_tape {| lq_tape := view m 0 cap; lq_len := 0 |}) = cap)
      by (cbn [lq_tape]; rewrite view_len; lia).
    assert (Hd0 : lq_data {| lq_tape := view m 0 cap; lq_len := 0 |} = []).
    { apply zlen_0. rewrite lq_data_len; [reflexivity|]. rewrite Ht0. cbn [lq_len]. lia. }
    destruct (lq_simple cap os {| lq_tape := view m 0 cap; lq_len := 0 |} res Ht0) as (q' & -> & D);
      [cbn [lq_len]; lia|exact Hp| |exact Q|].
    { clear - Hh. revert Hh. set (z := 0) at 1. clearbody z. revert z. induction os as [|o os IH]; intros acc Hh o' Ho'; [destruct Ho'|].
      cbn [ihistory_ok] in Hh. destruct Hh as (Ho & _ & Hh). destruct Ho' as [Ho'|Ho'].
      - subst o'. destruct o as [b|b|n|n|n|max i d|max]; cbn [irop_ok] in Ho; unfold is_usize in Ho; try exact Logic.I; lia.
      - exact (IH _ Hh o' Ho'). }
    rewrite Hd0 in D. rewrite Hd0 in M. destruct M as (r & E & S). exists r. split; [exact E|].
    rewrite <- D. split; [apply (ishows_data cap); assumption|].
    destruct S as (_ & W & _ & _ & RL & _). split; [exact RL|exact W].
  Qed.

  Lemma ishows_len cap r q : iring_shows t cap r q ->
    0 <= lq_len q <= zlen (lq_tape q) /\ zlen (lq_tape q) = cap.
  Proof. intros (_ & _ & HT & HL & _). lia. Qed.

  Lemma iwrite_claim cap os r b : iring_reached t cap os r -> zlen b < 2 ^ t_bits t ->
    iroom t cap os (Z.min (zlen b) cap) ->
    exists data r1 r2,
      iring_read_slice t r (umax t) = Ret data /\
      iring_write t r b = Ret (r1, Z.min (zlen b) cap) /\
      iring_read_slice t r1 (umax t) = Ret (lastn cap (data ++ ztake cap b)) /\
      iring_write_all t r b = Ret r2 /\
      iring_read_slice t r2 (umax t) = Ret (lastn cap (data ++ b)).
  Proof.
    intros H Hlb Hr. pose proof H as (Hc & Hw & _).
    destruct (ireached_call cap os r (IWrite b) H) as (q & S & C); [exact Hlb|right; exact Hr|].
    destruct (ireached_call cap os r (IWriteAll b) H) as (q2 & S2 & C2); [exact Hlb|right; exact Hr|].
    destruct C as [[[] _]|(_ & r1 & x & q' & E & [-> ->] & S')].
    destruct C2 as [[[] _]|(_ & r2 & x2 & q2' & E2 & [-> ->] & S2')].
    destruct (ishows_len cap r q S) as [HL HT]. destruct (ishows_len cap r q2 S2) as [HL2 HT2].
    pose proof (ishows_data cap r q S Hw) as D. pose proof (ishows_data cap r q2 S2 Hw) as D2.
    pose proof (ishows_data cap r1 _ S' Hw) as D'. pose proof (ishows_data cap r2 _ S2' Hw) as D2'.
    rewrite D in D2. injection D2 as D2.
    rewrite lq_data_push in D', D2' by lia. rewrite <- D2 in D2'. rewrite HT in D'. rewrite HT2 in D2'.
    exists (lq_data q), r1, r2. split; [exact D|].
    cbn [iring_step] in E, E2.
    destruct (iring_write t r b) as [[s n]| | | |]; cbn [obind fst snd] in E; try discriminate E.
    injection E as -> ->. rewrite HT. split; [reflexivity|]. split; [exact D'|].
    destruct (iring_write_all t r b) as [s2| | | |]; cbn [obind] in E2; try discriminate E2.
    injection E2 as ->. split; [reflexivity|exact D2'].
  Qed.
End C.
