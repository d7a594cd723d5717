(** Lemmas about byte sequences, views of memories and mirrored memories. *)
From Coq Require Import Lia.
From Verif Require Import Base RingModel.

Lemma zlen_nonneg {A} (l : list A) : 0 <= zlen l.
Proof. unfold zlen. lia. Qed.

Lemma zlen_nil {A} : zlen (@nil A) = 0.
Proof. reflexivity. Qed.

Lemma zlen_cons {A} (x : A) l : zlen (x :: l) = 1 + zlen l.
Proof. unfold zlen. cbn [length]. lia. Qed.

Lemma zlen_app {A} (l l' : list A) : zlen (l ++ l') = zlen l + zlen l'.
Proof. unfold zlen. rewrite app_length. lia. Qed.

Lemma zlen_0 {A} (l : list A) : zlen l = 0 -> l = [].
Proof. destruct l; [reflexivity|]. rewrite zlen_cons. pose proof (zlen_nonneg l). lia. Qed.

Lemma zlen_ztake {A} n (l : list A) : 0 <= n -> zlen (ztake n l) = Z.min n (zlen l).
Proof. intros. unfold zlen, ztake. rewrite firstn_length. lia. Qed.

Lemma zlen_zdrop {A} n (l : list A) : 0 <= n -> zlen (zdrop n l) = Z.max 0 (zlen l - n).
Proof. intros. unfold zlen, zdrop. rewrite skipn_length. lia. Qed.

Lemma ztake_zdrop {A} n (l : list A) : ztake n l ++ zdrop n l = l.
Proof. apply firstn_skipn. Qed.

Lemma ztake_all {A} n (l : list A) : zlen l <= n -> ztake n l = l.
Proof. intros. apply firstn_all2. unfold zlen in *. lia. Qed.

Lemma zdrop_all {A} n (l : list A) : zlen l <= n -> zdrop n l = [].
Proof. intros. apply skipn_all2. unfold zlen in *. lia. Qed.

Lemma ztake_neg {A} n (l : list A) : n <= 0 -> ztake n l = [].
Proof. intros. unfold ztake. replace (Z.to_nat n) with O by lia. reflexivity. Qed.

Lemma zdrop_neg {A} n (l : list A) : n <= 0 -> zdrop n l = l.
Proof. intros. unfold zdrop. replace (Z.to_nat n) with O by lia. reflexivity. Qed.

Lemma ztake_app_l {A} n (l l' : list A) : n <= zlen l -> ztake n (l ++ l') = ztake n l.
Proof.
  intros. unfold ztake. rewrite firstn_app. unfold zlen in *.
  replace (Z.to_nat n - length l)%nat with O by lia. rewrite firstn_O. apply app_nil_r.
Qed.

Lemma ztake_app_r {A} n (l l' : list A) : zlen l <= n ->
  ztake n (l ++ l') = l ++ ztake (n - zlen l) l'.
Proof.
  intros. unfold ztake. rewrite firstn_app. unfold zlen in *.
  rewrite firstn_all2 by lia. f_equal. f_equal. lia.
Qed.

Lemma zdrop_app_l {A} n (l l' : list A) : n <= zlen l -> zdrop n (l ++ l') = zdrop n l ++ l'.
Proof.
  intros. unfold zdrop. rewrite skipn_app. unfold zlen in *.
  replace (Z.to_nat n - length l)%nat with O by lia. reflexivity.
Qed.

Lemma zdrop_app_r {A} n (l l' : list A) : zlen l <= n ->
  zdrop n (l ++ l') = zdrop (n - zlen l) l'.
Proof.
  intros. unfold zdrop. rewrite skipn_app. unfold zlen in *.
  rewrite (skipn_all2 l) by lia. cbn [app]. f_equal. lia.
Qed.

Lemma zdrop_zdrop {A} n m (l : list A) : 0 <= n -> 0 <= m -> zdrop n (zdrop m l) = zdrop (m + n) l.
Proof.
  intros. unfold zdrop. replace (Z.to_nat (m + n)) with (Z.to_nat m + Z.to_nat n)%nat by lia.
  generalize (Z.to_nat m) as i. intros i. revert l.
  induction i as [|i IH]; intros l; [reflexivity|].
  destruct l as [|x l]; [rewrite !skipn_nil; reflexivity|]. cbn [skipn Nat.add]. apply IH.
Qed.

Lemma ztake_ztake {A} n m (l : list A) : ztake n (ztake m l) = ztake (Z.min n m) l.
Proof. unfold ztake. rewrite firstn_firstn. f_equal. lia. Qed.

Lemma ztake_min {A} n (l : list A) : ztake (Z.min n (zlen l)) l = ztake n l.
Proof.
  destruct (Z.le_ge_cases n (zlen l)).
  - rewrite Z.min_l by lia. reflexivity.
  - rewrite Z.min_r by lia. rewrite !ztake_all by lia. reflexivity.
Qed.

Lemma zdrop_min {A} n (l : list A) : zdrop (Z.min n (zlen l)) l = zdrop n l.
Proof.
  destruct (Z.le_ge_cases n (zlen l)).
  - rewrite Z.min_l by lia. reflexivity.
  - rewrite Z.min_r by lia. rewrite !zdrop_all by lia. reflexivity.
Qed.

Lemma ztake_split {A} n m (l : list A) : 0 <= n -> 0 <= m ->
  ztake (n + m) l = ztake n l ++ ztake m (zdrop n l).
Proof.
  intros Hn Hm. unfold ztake, zdrop. replace (Z.to_nat (n + m)) with (Z.to_nat n + Z.to_nat m)%nat by lia.
  generalize (Z.to_nat n) as i. intros i. revert l.
  induction i as [|i IH]; intros l; [reflexivity|].
  destruct l as [|x l]; [cbn; rewrite firstn_nil; reflexivity|].
  cbn [firstn skipn Nat.add app]. f_equal. apply IH.
Qed.

(** ** Views *)

Lemma view_len m a n : zlen (view m a n) = Z.max 0 n.
Proof. unfold view, zlen. rewrite map_length, seq_length. lia. Qed.

Lemma view_0 m a n : n <= 0 -> view m a n = [].
Proof. intros. apply zlen_0. rewrite view_len. lia. Qed.

Lemma view_app m a n1 n2 : 0 <= n1 -> 0 <= n2 ->
  view m a (n1 + n2) = view m a n1 ++ view m (a + n1) n2.
Proof.
  intros H1 H2. unfold view.
  replace (Z.to_nat (n1 + n2)) with (Z.to_nat n1 + Z.to_nat n2)%nat by lia.
  rewrite seq_app, map_app. f_equal.
  replace (0 + Z.to_nat n1)%nat with (Z.to_nat n1) by lia.
  replace (seq (Z.to_nat n1) (Z.to_nat n2))
    with (map (Nat.add (Z.to_nat n1)) (seq 0 (Z.to_nat n2))).
  - rewrite map_map. apply map_ext. intros k. f_equal. lia.
  - generalize (Z.to_nat n2) as c. generalize (Z.to_nat n1) as b. intros b c.
    replace b with (b + 0)%nat at 2 by lia. generalize O as s. revert b.
    induction c as [|c IH]; intros b s; [reflexivity|].
    cbn [seq map]. f_equal. rewrite IH. f_equal. lia.
Qed.

Lemma view_ext m m' a n : (forall i, a <= i < a + n -> m i = m' i) -> view m a n = view m' a n.
Proof.
  intros H. unfold view. apply map_ext_in. intros k Hk. apply in_seq in Hk.
  apply H. lia.
Qed.

Lemma view_shift m m' a b n : (forall i, 0 <= i < n -> m (a + i) = m' (b + i)) ->
  view m a n = view m' b n.
Proof.
  intros H. unfold view. apply map_ext_in. intros k Hk. apply in_seq in Hk.
  apply H. lia.
Qed.

Lemma view_cons m a n : 0 < n -> view m a n = m a :: view m (a + 1) (n - 1).
Proof.
  intros. replace n with (1 + (n - 1)) at 1 by lia. rewrite view_app by lia.
  change (view m a 1) with [m (a + 0)]. rewrite Z.add_0_r. reflexivity.
Qed.

Lemma ztake_view m a n k : 0 <= k -> ztake k (view m a n) = view m a (Z.min k n).
Proof.
  intros Hk. destruct (Z.le_gt_cases n k).
  - rewrite ztake_all by (rewrite view_len; lia). rewrite Z.min_r by lia. reflexivity.
  - rewrite Z.min_l by lia. replace n with (k + (n - k)) at 1 by lia.
    rewrite view_app by lia. rewrite ztake_app_l by (rewrite view_len; lia).
    apply ztake_all. rewrite view_len. lia.
Qed.

Lemma zdrop_view m a n k : 0 <= k -> zdrop k (view m a n) = view m (a + k) (n - k).
Proof.
  intros Hk. destruct (Z.le_gt_cases n k).
  - rewrite zdrop_all by (rewrite view_len; lia). symmetry. apply view_0. lia.
  - replace n with (k + (n - k)) at 1 by lia. rewrite view_app by lia.
    rewrite zdrop_app_r by (rewrite view_len; lia). apply zdrop_neg. rewrite view_len. lia.
Qed.

Lemma view_nth m a n i d : 0 <= i < n -> nth (Z.to_nat i) (view m a n) d = m (a + i).
Proof.
  intros Hi. unfold view. rewrite (nth_indep _ d (m (a + 0))).
  2:{ rewrite map_length, seq_length. lia. }
  change (m (a + 0)) with ((fun k => m (a + Z.of_nat k)) O).
  rewrite map_nth, seq_nth by lia. f_equal. lia.
Qed.

(** ** Mirrored memories *)

Lemma mirror_mod m len a b : a mod len = b mod len -> mirror m len a = mirror m len b.
Proof. unfold mirror. intros ->. reflexivity. Qed.

Lemma view_mirror_mod m len a b n : len <> 0 -> a mod len = b mod len ->
  view (mirror m len) a n = view (mirror m len) b n.
Proof.
  intros Hl H. apply view_shift. intros i Hi. apply mirror_mod.
  rewrite (Z.add_mod a) by exact Hl. rewrite (Z.add_mod b) by exact Hl. rewrite H. reflexivity.
Qed.

Lemma view_mirror_turn m len a n : len <> 0 ->
  view (mirror m len) (a + len) n = view (mirror m len) a n.
Proof.
  intros. apply view_mirror_mod; [assumption|].
  rewrite <- (Z.mul_1_l len) at 1. apply Z.mod_add. assumption.
Qed.

(** What a store at virtual offset [off] does to the byte seen at [off + j]. *)
Lemma vstore_at len : 0 < len -> forall (d : bytes) m off j,
  zlen d <= len -> 0 <= j < len ->
  mirror (vstore len m off d) len (off + j) =
  if j <? zlen d then nth (Z.to_nat j) d 0 else mirror m len (off + j).
Proof.
  intros Hlen d. induction d as [|b d IH]; intros m off j Hd Hj.
  - cbn [vstore]. rewrite zlen_nil. destruct (Z.ltb_spec j 0); [lia|reflexivity].
  - cbn [vstore]. rewrite zlen_cons in *. pose proof (zlen_nonneg d) as Hd0.
    destruct (Z.eq_dec j 0) as [->|Hj0].
    + destruct (Z.ltb_spec 0 (1 + zlen d)); [|lia]. cbn [Z.to_nat nth].
      replace (off + 0) with ((off + 1) + (len - 1) - 1 * len) by lia.
      rewrite (mirror_mod _ len _ (off + 1 + (len - 1))).
      2:{ rewrite <- Z.add_opp_r, <- Z.mul_opp_l. apply Z.mod_add. lia. }
      rewrite IH by lia. destruct (Z.ltb_spec (len - 1) (zlen d)); [lia|].
      unfold mirror, upd. replace (off + 1 + (len - 1)) with (off + 1 * len) by lia.
      rewrite Z.mod_add by lia. rewrite Z.eqb_refl. reflexivity.
    + replace (off + j) with (off + 1 + (j - 1)) by lia. rewrite IH by lia.
      destruct (Z.ltb_spec (j - 1) (zlen d)) as [H|H];
        destruct (Z.ltb_spec j (1 + zlen d)) as [H'|H']; try lia.
      * replace (Z.to_nat j) with (S (Z.to_nat (j - 1))) by lia. reflexivity.
      * unfold mirror, upd. replace (off + 1 + (j - 1)) with (off + j) by lia.
        destruct (Z.eqb_spec ((off + j) mod len) (off mod len)) as [He|]; [|reflexivity].
        exfalso. assert (Hm : ((off + j) - off) mod len = 0).
        { rewrite Zminus_mod, He, Z.sub_diag. apply Z.mod_0_l. lia. }
        replace (off + j - off) with j in Hm by lia. rewrite Z.mod_small in Hm by lia. lia.
Qed.

Lemma view_nth_self (d : bytes) : view (fun j => nth (Z.to_nat j) d 0) 0 (zlen d) = d.
Proof.
  induction d as [|b d IH]; [reflexivity|].
  rewrite zlen_cons. rewrite view_cons by (pose proof (zlen_nonneg d); lia).
  cbn [Z.to_nat nth]. f_equal. etransitivity; [|exact IH].
  replace (1 + zlen d - 1) with (zlen d) by lia.
  apply view_shift. intros i Hi. replace (Z.to_nat (0 + 1 + i)) with (S (Z.to_nat (0 + i))) by lia.
  reflexivity.
Qed.

Lemma vstore_view_in len m off (d : bytes) : 0 < len -> zlen d <= len ->
  view (mirror (vstore len m off d) len) off (zlen d) = d.
Proof.
  intros Hl Hd. etransitivity; [|exact (view_nth_self d)].
  apply view_shift. intros i Hi. rewrite vstore_at by lia.
  destruct (Z.ltb_spec i (zlen d)); [|lia]. f_equal.
Qed.

Lemma vstore_view_out len m off (d : bytes) a n : 0 < len -> zlen d <= len ->
  zlen d <= a -> a + n <= len ->
  view (mirror (vstore len m off d) len) (off + a) n = view (mirror m len) (off + a) n.
Proof.
  intros Hl Hd Ha Hn. apply view_shift. intros i Hi. pose proof (zlen_nonneg d).
  replace (off + a + i) with (off + (a + i)) by lia. rewrite vstore_at by lia.
  destruct (Z.ltb_spec (a + i) (zlen d)); [lia|reflexivity].
Qed.

Lemma vstore_mod len m off off' (d : bytes) : len <> 0 -> off mod len = off' mod len ->
  vstore len m off d = vstore len m off' d.
Proof.
  intros Hl. revert m off off'. induction d as [|b d IH]; intros m off off' H; [reflexivity|].
  cbn [vstore]. rewrite H. apply IH.
  rewrite (Z.add_mod off), (Z.add_mod off') by exact Hl. rewrite H. reflexivity.
Qed.
