(** Lemmas behind the ring properties C34-C43. *)
From Coq Require Import Lia Znumtheory.
From Verif Require Import Base ErrorModel RingSpec RingModel SeqProofs SizeProofs RingProofs IRingProofs.

(** Everything a user can observe of a ring that holds queue [q]. *)
Definition ring_shows (t : target) (cap : Z) (r : ring) (q : queue) : Prop :=
  ring_write_capacity r = cap /\
  zlen (q_data q) + zlen (q_free q) = cap /\
  ring_read_len t r = Ret (zlen (q_data q)) /\
  ring_write_len t r = Ret (zlen (q_free q)) /\
  (forall max, is_usize t max -> ring_read_slice t r max = Ret (ztake max (q_data q))) /\
  (forall max, is_usize t max -> ring_write_slice t r max = Ret (ztake max (q_free q))).

(** A ring some history produced. *)
Definition ring_reached (t : target) (cap : Z) (os : list rop) (r : ring) : Prop :=
  0 < cap /\ 2 * cap < 2 ^ t_bits t /\ history_ok t 0 cap os /\
  exists m xs, ring_run t (ring_make cap m) os = Ret (r, xs).

Definition iring_shows (t : target) (cap : Z) (r : iring) (q : lqueue) : Prop :=
  iring_write_capacity r = cap /\ iring_write_len r = cap /\
  zlen (lq_tape q) = cap /\ 0 <= lq_len q <= cap /\
  iring_read_len t r = zlen (lq_data q) /\
  (forall max, is_usize t max -> iring_read_slice t r max = Ret (ztake max (lq_data q))) /\
  (forall max, is_usize t max -> iring_write_slice t r max = Ret (ztake max (lq_tape q))).

Definition iring_reached (t : target) (cap : Z) (os : list irop) (r : iring) : Prop :=
  0 < cap /\ 2 * cap < 2 ^ t_bits t /\ ihistory_ok t 0 cap os /\
  exists m xs, iring_run t (iring_make cap m) os = Ret (r, xs).

Lemma good_bits t : good_target t -> 32 <= t_bits t <= 64.
Proof. intros [H _]. lia. Qed.

Lemma is_usize_umax t : 32 <= t_bits t <= 64 -> is_usize t (umax t).
Proof. intros H. pose proof (word_pos t H). unfold is_usize, umax. lia. Qed.

Section L.
  Variable t : target.
  Hypothesis Hg : good_target t.
  Let Hbits : 32 <= t_bits t <= 64 := good_bits t Hg.

  Lemma inv_shows r T R : inv t r T R -> ring_shows t (r_len r) r (absq r T R).
  Proof.
    intros I. pose proof (absq_data_len t Hbits r T R I) as HD. pose proof (absq_free_len t Hbits r T R I) as HF.
    split; [reflexivity|]. split; [lia|]. rewrite HD, HF.
    split; [apply (read_len_eq t Hbits); exact I|].
    split; [apply (write_len_eq t Hbits); exact I|].
    split; intros max Hm; unfold is_usize in Hm.
    - apply (read_slice_eq t Hbits); [exact I|lia].
    - apply (write_slice_eq t Hbits); [exact I|lia].
  Qed.

  Lemma mirror_id m cap : 0 < cap -> view (mirror m cap) 0 cap = view m 0 cap.
  Proof. intros. apply view_ext. intros i Hi. unfold mirror. f_equal. apply Z.mod_small. lia. Qed.

  Lemma ring_queue cap m os :
    0 < cap -> 2 * cap < 2 ^ t_bits t -> history_ok t 0 cap os ->
    exists res, q_run {| q_data := []; q_free := view m 0 cap |} os res /\
      match res with
      | Some (q, xs) => exists r, ring_run t (ring_make cap m) os = Ret (r, xs) /\
                                  ring_shows t cap r q
      | None => ring_run t (ring_make cap m) os = Panic
      end.
  Proof.
    intros Hc Hw Hh. pose proof (make_inv t Hbits cap m Hc ltac:(lia)) as I.
    destruct (run_sim t Hbits os (ring_make cap m) 0 0 0 I ltac:(lia) Hh) as (res & Q & M).
    replace (absq (ring_make cap m) 0 0) with {| q_data := []; q_free := view m 0 cap |} in Q.
    2:{ unfold absq. cbn [ring_make r_len r_mem]. 
        replace (cap - (0 - 0)) with cap by lia. rewrite mirror_id by lia. reflexivity. }
    exists res. split; [exact Q|]. destruct res as [[q xs]|]; [|exact M].
    destruct M as (r' & T' & R' & E & I' & A & L & _). exists r'. split; [exact E|].
    rewrite <- A. replace cap with (r_len r') by (rewrite L; reflexivity). apply inv_shows, I'.
  Qed.

  (** Reached rings satisfy the invariant, with room for what the history
      allows next. *)
  Lemma reached_inv cap os r : ring_reached t cap os r ->
    exists T R, inv t r T R /\ r_len r = cap /\ T <= total_after 0 cap os.
  Proof.
    intros (Hc & Hw & Hh & m & xs & E).
    pose proof (make_inv t Hbits cap m Hc ltac:(lia)) as I.
    destruct (run_sim t Hbits os (ring_make cap m) 0 0 0 I ltac:(lia) Hh) as (res & Q & M).
    destruct res as [[q ys]|]; [|rewrite M in E; discriminate].
    destruct M as (r' & T' & R' & E' & I' & A & L & B). rewrite E' in E.
    injection E as -> _. exists T', R'. split; [exact I'|]. split; [exact L|exact B].
  Qed.

  Lemma total_nonneg os : forall acc cap, 0 <= acc -> 0 <= cap -> Forall (rop_ok t) os ->
    0 <= total_after acc cap os.
  Proof.
    induction os as [|o os IH]; intros acc cap Ha Hc Ho; [exact Ha|].
    inversion Ho as [|? ? Ho1 Ho2]; subst. cbn [total_after]. apply IH; try assumption.
    destruct o; cbn [next_total rop_weight rop_ok] in *; unfold is_usize in *;
      try (pose proof (zlen_nonneg b)); lia.
  Qed.

  Lemma reached_shows cap os r : ring_reached t cap os r -> exists q, ring_shows t cap r q.
  Proof.
    intros H. destruct (reached_inv cap os r H) as (T & R & I & L & _).
    exists (absq r T R). rewrite <- L. apply inv_shows, I.
  Qed.

  (** A ring shows only one queue. *)
  Lemma shows_unique cap r q q' : ring_shows t cap r q -> ring_shows t cap r q' -> q = q'.
  Proof.
    intros H1 H2. pose proof H1 as (_ & L1 & D1 & F1 & R1 & W1).
    pose proof H2 as (_ & L2 & D2 & F2 & R2 & W2).
    pose proof (is_usize_umax t Hbits) as Hu.
    pose proof (R1 _ Hu) as A. rewrite (R2 _ Hu) in A. injection A as A.
    pose proof (W1 _ Hu) as B. rewrite (W2 _ Hu) in B. injection B as B.
    assert (Hlen : forall s, ring_shows t cap r s -> zlen (q_data s) <= umax t /\ zlen (q_free s) <= umax t).
    { intros s (_ & Ls & Ds & Fs & _). unfold ring_read_len in Ds.
      unfold umax. pose proof (word_pos t Hbits).
      destruct (sub64 t (r_wpos r) (r_rpos r)) as [d| | | |]; try discriminate Ds.
      cbn [obind] in Ds. injection Ds as Ds. rewrite <- Ds. unfold as_usize.
      pose proof (Z.mod_pos_bound d (2 ^ t_bits t)).
      split; [lia|]. unfold ring_write_len, ring_read_len in Fs.
      destruct (sub64 t (r_wpos r) (r_rpos r)) as [d'| | | |]; try discriminate Fs.
      cbn [obind] in Fs. unfold usub, wrap in Fs.
      destruct ((0 <=? ring_write_capacity r - as_usize t d') &&
                (ring_write_capacity r - as_usize t d' <? 2 ^ t_bits t)) eqn:Hx.
      - injection Fs as <-. apply andb_prop in Hx. destruct Hx as [_ Hx]. apply Z.ltb_lt in Hx. lia.
      - destruct (t_checks t); [discriminate|]. injection Fs as <-.
        match goal with |- ?x mod ?y <= _ => pose proof (Z.mod_pos_bound x y) end. lia. }
    destruct (Hlen q H1), (Hlen q' H2).
    rewrite !ztake_all in A, B by assumption.
    destruct q, q'; cbn in *; congruence.
  Qed.

  Lemma history_ok_app os1 : forall acc cap os2,
    history_ok t acc cap (os1 ++ os2) <->
    history_ok t acc cap os1 /\ history_ok t (total_after acc cap os1) cap os2.
  Proof.
    induction os1 as [|o os1 IH]; intros acc cap os2; cbn [app history_ok total_after].
    - tauto.
    - rewrite IH. tauto.
  Qed.

  (** One more call on a reached ring. *)
  Lemma reached_step cap os r o q : ring_reached t cap os r -> history_ok t 0 cap (os ++ [o]) ->
    ring_shows t cap r q ->
    (q_panics q o /\ ring_step t r o = Panic) \/
    (~ q_panics q o /\ exists r' x q', ring_step t r o = Ret (r', x) /\ q_step q o q' x /\
       ring_shows t cap r' q').
  Proof.
    intros H Hh Hs. destruct (reached_inv cap os r H) as (T & R & I & L & B).
    apply history_ok_app in Hh. destruct Hh as [_ Hh]. cbn [history_ok] in Hh.
    destruct Hh as (Ho & Hp & _).
    assert (Hq : q = absq r T R).
    { apply (shows_unique cap r); [exact Hs|]. rewrite <- L. apply inv_shows, I. }
    subst q. rewrite <- L in Hp, B.
    destruct (step_sim t Hbits r T R o _ I B Ho Hp)
      as [Hpan|(Hn & r' & x & T' & R' & E & I' & _ & S & L')]; [left; exact Hpan|].
    right. split; [exact Hn|]. exists r', x, (absq r' T' R'). split; [exact E|].
    split; [exact S|]. rewrite <- L, <- L'. apply inv_shows, I'.
  Qed.

  Lemma reached_next cap os r o r' x : ring_reached t cap os r -> history_ok t 0 cap (os ++ [o]) ->
    ring_step t r o = Ret (r', x) -> ring_reached t cap (os ++ [o]) r'.
  Proof.
    intros (Hc & Hw & Hh & m & xs & E) Hh' S. split; [exact Hc|]. split; [exact Hw|].
    split; [exact Hh'|]. exists m, (xs ++ [x]). revert E. generalize (ring_make cap m) as s.
    clear Hh Hh'. revert xs. induction os as [|p os IH]; intros xs s E.
    - cbn [app ring_run] in *. injection E as -> <-. rewrite S. reflexivity.
    - cbn [app ring_run] in *. destruct (ring_step t s p) as [[s1 y]| | | |]; try discriminate E.
      cbn [obind fst snd] in *. destruct (ring_run t s1 os) as [[s2 ys]| | | |] eqn:E2; try discriminate E.
      cbn [obind fst snd] in E. injection E as -> <-. rewrite (IH ys s1 E2). reflexivity.
  Qed.

  (** Offsets and flags *)
  Lemma reached_offsets cap os r : ring_reached t cap os r ->
    exists ro wo rl wl, ring_read_offset t r = Ret ro /\ ring_write_offset t r = Ret wo /\
      ring_read_len t r = Ret rl /\ ring_write_len t r = Ret wl /\
      0 <= ro < cap /\ 0 <= wo < cap /\ 0 <= rl /\ 0 <= wl /\ rl + wl = cap /\
      ring_write_capacity r = cap /\
      ring_is_empty t r = Ret (rl =? 0) /\ ring_is_full t r = Ret (wl =? 0) /\
      (ro + rl) mod cap = wo.
  Proof.
    intros H. destruct (reached_inv cap os r H) as (T & R & I & L & _).
    exists (R mod cap), (T mod cap), (T - R), (cap - (T - R)).
    unfold ring_is_empty, ring_is_full.
    rewrite (read_len_eq t Hbits r T R I), (write_len_eq t Hbits r T R I).
    rewrite <- L. rewrite (read_offset_eq t Hbits r T R I), (write_offset_eq t Hbits r T R I).
    destruct I. pose proof (Z.mod_pos_bound R (r_len r)). pose proof (Z.mod_pos_bound T (r_len r)).
    repeat split; try reflexivity; try lia.
    rewrite Zplus_mod_idemp_l. f_equal. lia.
  Qed.

  (** ** The same for InfiniteRing *)

  Lemma iinv_shows r T : iinv t r T -> iring_shows t (i_len r) r (abst r T).
  Proof.
    intros I. split; [reflexivity|]. split; [reflexivity|].
    split; [apply (abst_tape_len t Hbits), I|].
    assert (HL : 0 <= lq_len (abst r T) <= i_len r) by (destruct I; exact ii_rlen).
    split; [exact HL|]. split.
    { rewrite lq_data_len by (rewrite (abst_tape_len t Hbits r T I); exact HL).
      apply (i_read_len_eq t Hbits r T I). }
    split; intros max Hm; unfold is_usize in Hm.
    - apply (i_read_slice_eq t Hbits); [exact I|lia].
    - apply (i_write_slice_eq t Hbits); [exact I|lia].
  Qed.

  Lemma iring_queue cap m os :
    0 < cap -> 2 * cap < 2 ^ t_bits t -> ihistory_ok t 0 cap os ->
    exists res, lq_run {| lq_tape := view m 0 cap; lq_len := 0 |} os res /\
      match res with
      | Some (q, xs) => exists r, iring_run t (iring_make cap m) os = Ret (r, xs) /\
                                  iring_shows t cap r q
      | None => iring_run t (iring_make cap m) os = Panic
      end.
  Proof.
    intros Hc Hw Hh. pose proof (imake_inv t Hbits cap m Hc ltac:(lia)) as I.
    destruct (irun_sim t Hbits os (iring_make cap m) 0 0 I ltac:(lia) Hh) as (res & Q & M).
    replace (abst (iring_make cap m) 0) with {| lq_tape := view m 0 cap; lq_len := 0 |} in Q.
    2:{ unfold abst. cbn [iring_make i_len i_mem i_rlen]. rewrite mirror_id by lia. reflexivity. }
    exists res. split; [exact Q|]. destruct res as [[q xs]|]; [|exact M].
    destruct M as (r' & T' & E & I' & A & L & _). exists r'. split; [exact E|].
    rewrite <- A. replace cap with (i_len r') by (rewrite L; reflexivity). apply iinv_shows, I'.
  Qed.

  Lemma ireached_inv cap os r : iring_reached t cap os r ->
    exists T, iinv t r T /\ i_len r = cap /\ T <= itotal_after 0 cap os.
  Proof.
    intros (Hc & Hw & Hh & m & xs & E).
    pose proof (imake_inv t Hbits cap m Hc ltac:(lia)) as I.
    destruct (irun_sim t Hbits os (iring_make cap m) 0 0 I ltac:(lia) Hh) as (res & Q & M).
    destruct res as [[q ys]|]; [|rewrite M in E; discriminate].
    destruct M as (r' & T' & E' & I' & A & L & B). rewrite E' in E.
    injection E as -> _. exists T'. split; [exact I'|]. split; [exact L|exact B].
  Qed.

  Lemma ihistory_ok_app os1 : forall acc cap os2,
    ihistory_ok t acc cap (os1 ++ os2) <->
    ihistory_ok t acc cap os1 /\ ihistory_ok t (itotal_after acc cap os1) cap os2.
  Proof.
    induction os1 as [|o os1 IH]; intros acc cap os2; cbn [app ihistory_ok itotal_after].
    - tauto.
    - rewrite IH. tauto.
  Qed.

  Lemma ireached_shows cap os r : iring_reached t cap os r -> exists q, iring_shows t cap r q.
  Proof.
    intros H. destruct (ireached_inv cap os r H) as (T & I & L & _).
    exists (abst r T). rewrite <- L. apply iinv_shows, I.
  Qed.

  (** feed, for every count *)
  Lemma ireached_feed cap os r n rl : iring_reached t cap os r -> is_usize t n ->
    pos_ok t cap (itotal_after 0 cap os + Z.min n cap) -> iring_read_len t r = rl ->
    (rl + n < 2 ^ 64 ->
       exists r', iring_feed t r n = Ret r' /\ iring_read_len t r' = Z.min (rl + n) cap) /\
    (2 ^ 64 <= rl + n ->
       if t_checks t then iring_feed t r n = Panic
       else exists r', iring_feed t r n = Ret r' /\
              iring_read_len t r' = Z.min (rl + n - 2 ^ 64) cap).
  Proof.
    intros H Hn Hp Hrl. destruct (ireached_inv cap os r H) as (T & I & L & B).
    rewrite (i_read_len_eq t Hbits r T I) in Hrl. subst rl.
    assert (Hok : pos_ok t (i_len r) (T + Z.min n (i_len r))).
    { rewrite L. eapply (pos_ok_le t Hbits); [exact Hp|]. lia. }
    unfold is_usize in Hn. split; intros Hs.
    - destruct (i_feed_eq t Hbits r T I n) as (r' & E & I' & A & L'); [lia|lia|exact Hok|].
      exists r'. split; [exact E|]. rewrite (i_read_len_eq t Hbits r' _ I').
      pose proof (f_equal lq_len A) as Hl. cbn [abst lq_len] in Hl. rewrite Hl, L. reflexivity.
    - rewrite (i_feed_over t Hbits r T I n Hn Hs Hok).
      destruct (t_checks t); [reflexivity|]. eexists. split; [reflexivity|].
      unfold iring_read_len; cbn [i_rlen]. unfold as_usize. rewrite L.
      destruct I. rewrite Z.mod_small; [reflexivity|]. rewrite <- L. lia.
  Qed.
End L.

(** ** Consequences at the level of the specification *)

(** Calls whose effect on the stream is visible in their arguments and
    results. *)
Definition plain (o : rop) : Prop :=
  match o with
  | RWrite _ | RWriteAll _ | RRead _ | RPeek _ | RUntil _ | RPut _ => True
  | _ => False
  end.
Definition bytes_in (p : rop * rout) : bytes :=
  match p with
  | (RWrite b, OCount n) => ztake n b
  | (RWriteAll b, OUnit) => b
  | (RPut b, OUnit) => b
  | _ => []
  end.
Definition bytes_out (p : rop * rout) : bytes :=
  match p with
  | (RRead _, OBytes b) => b
  | (RUntil _, OBytes b) => b
  | _ => []
  end.
Definition no_error (x : rout) : Prop := match x with OErr _ => False | _ => True end.

Lemma through_prefix d l : through d l ++ zdrop (zlen (through d l)) l = l.
Proof.
  induction l as [|b l IH]; [reflexivity|]. cbn [through]. destruct (b =? d); [reflexivity|].
  rewrite zlen_cons. cbn [app]. f_equal.
  pose proof (zlen_nonneg (through d l)).
  unfold zdrop. replace (Z.to_nat (1 + zlen (through d l))) with (S (Z.to_nat (zlen (through d l)))) by lia.
  exact IH.
Qed.

Lemma q_fifo os : forall q q' xs, q_run q os (Some (q', xs)) ->
  Forall plain os -> Forall no_error xs ->
  q_data q ++ flat_map bytes_in (combine os xs) =
  flat_map bytes_out (combine os xs) ++ q_data q'.
Proof.
  induction os as [|o os IH]; intros q q' xs H Hp Hn.
  - inversion H; subst. cbn [combine flat_map]. rewrite app_nil_r. reflexivity.
  - inversion H as [| |q0 o0 os0 q1 x q2 xs' Hnp Hs Hr|]; subst.
    inversion Hp; subst. inversion Hn; subst.
    specialize (IH q1 q' xs' Hr ltac:(assumption) ltac:(assumption)).
    cbn [combine flat_map].
    destruct o as [b|b|n|n|n|max i d|max|d|b|]; cbn [q_step plain] in *; try contradiction.
    + destruct Hs as [-> ->]. cbn [bytes_in bytes_out q_append q_data] in *.
      cbn [app]. rewrite <- IH, <- app_assoc. reflexivity.
    + destruct Hs as [-> ->]. cbn [q_append q_data] in IH.
      destruct (Z.leb_spec (zlen b) (zlen (q_free q))) as [Hle|Hle].
      * cbn [bytes_in bytes_out app]. rewrite <- IH. rewrite ztake_all by lia.
        rewrite <- app_assoc. reflexivity.
      * cbn [no_error] in *. contradiction.
    + destruct Hs as [-> ->]. cbn [bytes_in bytes_out q_remove q_data app] in *.
      rewrite <- app_assoc, <- IH, app_assoc, ztake_zdrop. reflexivity.
    + destruct Hs as [-> ->]. cbn [bytes_in bytes_out app]. exact IH.
    + destruct Hs as [-> ->]. cbn [bytes_in bytes_out q_remove q_data app] in *.
      rewrite <- app_assoc, <- IH, app_assoc, through_prefix. reflexivity.
    + destruct Hs as [-> ->]. cbn [bytes_in bytes_out q_append q_data app] in *.
      rewrite <- IH, <- app_assoc. reflexivity.
Qed.

(** Without feed, results depend on the readable bytes and the amount of free
    space only. *)
Definition no_feed (o : rop) : Prop := match o with RFeed _ => False | _ => True end.

Definition same_q (q s : queue) : Prop :=
  q_data q = q_data s /\ zlen (q_free q) = zlen (q_free s).

Lemma zlen_store i (d l : bytes) : 0 <= i -> i + zlen d <= zlen l ->
  zlen (ztake i l ++ d ++ zdrop (i + zlen d) l) = zlen l.
Proof.
  intros Hi Hd. pose proof (zlen_nonneg d). rewrite !zlen_app, zlen_ztake, zlen_zdrop by lia. lia.
Qed.

Lemma zlen_rotate k (l : bytes) : zlen (zdrop k l ++ ztake k l) = zlen l.
Proof.
  rewrite zlen_app. pose proof (f_equal zlen (ztake_zdrop k l)) as H. rewrite zlen_app in H. lia.
Qed.

Lemma same_q_panics q s o : same_q q s -> (q_panics q o <-> q_panics s o).
Proof. intros [Hd Hf]. destruct o; cbn [q_panics]; rewrite ?Hf; tauto. Qed.

Lemma same_q_step q s o q' s' x y : same_q q s -> no_feed o ->
  ~ q_panics q o -> q_step q o q' x -> q_step s o s' y -> same_q q' s' /\ x = y.
Proof.
  intros [Hd Hf] Hn Hp H1 H2. unfold same_q.
  destruct o as [b|b|n|n|n|max i d|max|d|b|]; cbn [q_step no_feed q_panics] in *; try contradiction.
  - destruct H1 as [-> ->], H2 as [-> ->]. cbn [q_append q_data q_free]. rewrite Hd, Hf.
    split; [split; [reflexivity|]|reflexivity].
    pose proof (zlen_nonneg (ztake (Z.min (zlen b) (zlen (q_free s))) b)).
    rewrite !zlen_zdrop by lia. rewrite Hf. reflexivity.
  - destruct H1 as [-> ->], H2 as [-> ->]. cbn [q_append q_data q_free]. rewrite Hd, Hf.
    split; [split; [reflexivity|]|reflexivity].
    pose proof (zlen_nonneg (ztake (zlen (q_free s)) b)).
    rewrite !zlen_zdrop by lia. rewrite Hf. reflexivity.
  - destruct H1 as [-> ->], H2 as [-> ->]. cbn [q_remove q_data q_free]. rewrite Hd.
    rewrite !zlen_app, Hf. auto.
  - destruct H1 as [-> ->], H2 as [-> ->]. cbn [q_remove q_data q_free]. rewrite Hd.
    rewrite !zlen_app, Hf. auto.
  - destruct H1 as [-> ->], H2 as [-> ->]. cbn [q_data q_free].
    assert (Hs : 0 <= i /\ i + zlen d <= Z.min (zlen (q_free q)) max) by lia.
    rewrite !zlen_store by lia. auto.
  - destruct H1 as [-> ->], H2 as [-> ->]. rewrite Hd. auto.
  - destruct H1 as [-> ->], H2 as [-> ->]. cbn [q_remove q_data q_free]. rewrite Hd.
    rewrite !zlen_app, Hf. auto.
  - destruct H1 as [-> ->], H2 as [-> ->]. cbn [q_append q_data q_free]. rewrite Hd.
    pose proof (zlen_nonneg b). rewrite !zlen_zdrop by lia. rewrite Hf. auto.
  - destruct H1 as (-> & [k1 H1] & ->), H2 as (-> & [k2 H2] & ->). cbn zeta in *.
    rewrite H1, H2, !zlen_rotate, !zlen_app, Hd, Hf. auto.
Qed.

Lemma same_q_run os : forall q s res res', same_q q s -> Forall no_feed os ->
  q_run q os res -> q_run s os res' ->
  option_map snd res = option_map snd res'.
Proof.
  induction os as [|o os IH]; intros q s res res' Hs Hn H1 H2.
  - inversion H1; inversion H2; subst. reflexivity.
  - inversion Hn as [|? ? Hn1 Hn2]; subst.
    pose proof (same_q_panics q s o Hs) as Hpp.
    inversion H1 as [|? ? ? P1|? ? ? q1 x1 q1' xs1 N1 S1 R1|? ? ? q1 x1 N1 S1 R1]; subst;
    inversion H2 as [|? ? ? P2|? ? ? q2 x2 q2' xs2 N2 S2 R2|? ? ? q2 x2 N2 S2 R2]; subst;
    try reflexivity; try tauto;
    destruct (same_q_step q s o q1 q2 x1 x2 Hs Hn1 N1 S1 S2) as [Hs' ->];
    pose proof (IH _ _ _ _ Hs' Hn2 R1 R2) as E; cbn [option_map snd] in *; congruence.
Qed.

(** ** The readable bytes of an InfiniteRing without the specification's tape *)
Definition splain (o : irop) : Prop :=
  match o with IFeed _ | IStore _ _ _ => False | _ => True end.
Definition s_step (cap : Z) (d : bytes) (o : irop) : bytes * rout :=
  match o with
  | IWrite b => (lastn cap (d ++ ztake cap b), OCount (Z.min (zlen b) cap))
  | IWriteAll b => (lastn cap (d ++ b), OUnit)
  | IRead n => (zdrop n d, OBytes (ztake n d))
  | IConsume n => (zdrop n d, OUnit)
  | IPeek n => (d, OBytes (ztake n d))
  | _ => (d, OUnit)
  end.
Fixpoint s_run (cap : Z) (d : bytes) (os : list irop) : bytes * list rout :=
  match os with
  | [] => (d, [])
  | o :: os' => let '(d', x) := s_step cap d o in
                let '(d'', xs) := s_run cap d' os' in (d'', x :: xs)
  end.

Lemma lastn_tape_len q b : zlen (lq_tape (lq_push q b)) = zlen (lq_tape q).
Proof.
  cbn [lq_push lq_tape]. rewrite lastn_len by apply zlen_nonneg. rewrite zlen_app.
  pose proof (zlen_nonneg b). lia.
Qed.

Lemma lq_simple cap os : forall q res, zlen (lq_tape q) = cap -> 0 <= lq_len q <= cap ->
  Forall splain os -> (forall o, In o os -> match o with IRead n | IConsume n => 0 <= n | _ => True end) ->
  lq_run q os res ->
  exists q', res = Some (q', snd (s_run cap (lq_data q) os)) /\
             lq_data q' = fst (s_run cap (lq_data q) os).
Proof.
  induction os as [|o os IH]; intros q res HT HL Hp Hn H.
  - inversion H; subst. exists q. split; reflexivity.
  - inversion Hp as [|? ? Hp1 Hp2]; subst.
    assert (Hin : forall o', In o' os -> match o' with IRead n | IConsume n => 0 <= n | _ => True end)
      by (intros o' Ho'; apply Hn; right; exact Ho').
    pose proof (Hn o (or_introl eq_refl)) as Hno.
    assert (Hnp : ~ lq_panics q o) by (destruct o; cbn in *; tauto).
    assert (Hstep : forall q1 x, lq_step q o q1 x ->
      zlen (lq_tape q1) = zlen (lq_tape q) /\ 0 <= lq_len q1 <= zlen (lq_tape q) /\
      s_step (zlen (lq_tape q)) (lq_data q) o = (lq_data q1, x)).
    { intros q1 x Hs. destruct o as [b|b|n|n|n|max i d|max]; cbn [lq_step splain s_step] in *;
        try contradiction; destruct Hs as [-> ->].
      - rewrite lastn_tape_len, lq_data_push by exact HL. split; [reflexivity|].
        split; [|reflexivity]. cbn [lq_push lq_len].
        pose proof (zlen_nonneg (ztake (zlen (lq_tape q)) b)). lia.
      - rewrite lastn_tape_len, lq_data_push by exact HL. split; [reflexivity|].
        split; [|reflexivity]. cbn [lq_push lq_len]. pose proof (zlen_nonneg b). lia.
      - rewrite lq_data_drop by assumption. split; [reflexivity|].
        split; [|reflexivity]. cbn [lq_drop lq_len]. lia.
      - rewrite lq_data_drop by assumption. split; [reflexivity|].
        split; [|reflexivity]. cbn [lq_drop lq_len]. lia.
      - split; [reflexivity|]. split; [exact HL|reflexivity]. }
    inversion H as [|? ? ? P|? ? ? q1 x q2 xs _ S R|? ? ? q1 x _ S R]; subst; [tauto| |];
      destruct (Hstep q1 x S) as (H1 & H2 & H3); cbn [s_run]; rewrite H3;
      destruct (IH q1 _ H1 H2 Hp2 Hin R) as (q' & E & D);
      destruct (s_run (zlen (lq_tape q)) (lq_data q1) os) as [d2 ys]; cbn [fst snd] in *.
    + injection E as -> ->. exists q'. split; [reflexivity|exact D].
    + discriminate E.
Qed.
