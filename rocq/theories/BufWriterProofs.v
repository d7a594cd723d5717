(** The buffered writer over an inner writer that honours the contract of
    [std::io::Write]. *)
From Coq Require Import Lia Permutation.
From Verif Require Import Base ErrorModel RingSpec RingModel RingExactSpec BufSpec BufModel SeqProofs SizeProofs
  RingProofs RingTheorems RingClaims RingExact.

Lemma accepted_app s s' evs : ws_log s' = ws_log s ++ evs ->
  accepted s' = accepted s ++ flat_map event_bytes evs.
Proof. intros H. unfold accepted. rewrite H. apply flat_map_app. Qed.

Lemma flat_wrote ds : flat_map event_bytes (map Wrote ds) = concat ds.
Proof. induction ds as [|d ds IH]; [reflexivity|]. cbn. rewrite IH. reflexivity. Qed.

Lemma perm_step {A} (a d x m a1 d1 : list A) : Permutation (a ++ d ++ x) (a1 ++ d1) ->
  Permutation (a ++ d ++ x ++ m) (a1 ++ d1 ++ m).
Proof.
  intros H. replace (a ++ d ++ x ++ m) with ((a ++ d ++ x) ++ m) by (rewrite <- !app_assoc; reflexivity).
  rewrite (app_assoc a1). apply Permutation_app_tail, H.
Qed.
Lemma eq_step {A} (a d x m a1 d1 : list A) : a ++ d ++ x = a1 ++ d1 ->
  a ++ d ++ x ++ m = a1 ++ d1 ++ m.
Proof.
  intros H. replace (a ++ d ++ x ++ m) with ((a ++ d ++ x) ++ m) by (rewrite <- !app_assoc; reflexivity).
  rewrite (app_assoc a1), H. reflexivity.
Qed.

(** The flag says whether the most recent inner write panicked. *)
Definition flag_ok (b : bufwriter) : Prop := bw_panicked b = last_write_panicked (bw_sink b).

(** One call of an honest inner writer. *)
Lemma inner_write_spec b buf b' r : Forall whonest (ws_script (bw_sink b)) ->
  bw_inner_write b buf = (b', r) ->
  bw_ring b' = bw_ring b /\ Forall whonest (ws_script (bw_sink b')) /\
  ((ws_script (bw_sink b) = [] /\ bw_sink b' = bw_sink b /\ r = Blocked) \/
   (exists a, ws_script (bw_sink b) = a :: ws_script (bw_sink b') /\ flag_ok b' /\
     ws_calls (bw_sink b') = ws_calls (bw_sink b) ++ [(buf, a)] /\
     ((exists k, a = Take k /\ r = Ret (zlen (ztake k buf)) /\
         ws_log (bw_sink b') = ws_log (bw_sink b) ++ [Wrote (ztake k buf)]) \/
      (exists e, a = WFail e /\ r = Err e /\ ws_log (bw_sink b') = ws_log (bw_sink b)) \/
      (a = WBoom /\ r = Panic /\ ws_log (bw_sink b') = ws_log (bw_sink b) /\ bw_panicked b' = true)))).
Proof.
  intros Hh. unfold bw_inner_write, sink_write. destruct (ws_script (bw_sink b)) as [|a rest] eqn:Es.
  - intros E. injection E as <- <-. cbn [bw_ring bw_sink]. rewrite Es.
    split; [reflexivity|]. split; [constructor|]. left. auto.
  - inversion Hh as [|? ? Ha Hr]; subst.
    destruct a as [k|k|e|]; cbn [whonest] in Ha; try contradiction;
      intros E; injection E as <- <-; cbn [bw_ring bw_sink ws_script ws_calls ws_log bw_panicked];
      (split; [reflexivity|]); (split; [exact Hr|]); right;
      (eexists; split; [reflexivity|]); (split; [unfold flag_ok, last_write_panicked;
        cbn [bw_sink bw_panicked ws_calls]; rewrite rev_app_distr; reflexivity|]); (split; [reflexivity|]).
    + left. exists k. auto.
    + right. left. exists e. rewrite app_nil_r. auto.
    + right. right. rewrite app_nil_r. auto.
Qed.

Section W.
  Variable t : target.
  Hypothesis Hbits : 32 <= t_bits t <= 64.
  Variable cap : Z.
  Hypothesis Hcap : 0 < cap.
  Hypothesis Hword : 2 * cap < 2 ^ t_bits t.

  (** [data]: buffered; [free]: the writable area; [T]: bytes ever buffered. *)
  Definition wi (b : bufwriter) (data free : bytes) (T : Z) : Prop :=
    exists R, inv t (bw_ring b) T R /\
      absq (bw_ring b) T R = {| q_data := data; q_free := free |} /\
      r_len (bw_ring b) = cap /\ Forall whonest (ws_script (bw_sink b)).

  Lemma wi_lens b data free T : wi b data free T -> zlen data + zlen free = cap.
  Proof.
    intros (R & I & A & L & _).
    pose proof (absq_data_len t Hbits _ _ _ I) as H1. pose proof (absq_free_len t Hbits _ _ _ I) as H2.
    rewrite A in H1, H2. cbn [q_data q_free] in *. lia.
  Qed.

  Lemma wi_ring b data free T : wi b data free T ->
    ring_read_len t (bw_ring b) = Ret (zlen data) /\
    ring_write_len t (bw_ring b) = Ret (zlen free) /\
    ring_is_empty t (bw_ring b) = Ret (zlen data =? 0) /\
    bw_buffer t b = Ret data.
  Proof.
    intros H. pose proof (wi_lens _ _ _ _ H) as HL. pose proof (zlen_nonneg data). pose proof (zlen_nonneg free).
    destruct H as (R & I & A & L & _).
    pose proof (absq_data_len t Hbits _ _ _ I) as HD1. rewrite A in HD1. cbn [q_data] in HD1.
    unfold bw_buffer, ring_is_empty.
    rewrite (read_len_eq t Hbits _ _ _ I), (write_len_eq t Hbits _ _ _ I), (read_slice_eq t Hbits _ _ _ I)
      by (unfold umax; lia).
    rewrite A. cbn [q_data q_free]. rewrite !ztake_all by (unfold umax; lia).
    rewrite <- HD1. cbn [obind]. repeat split. f_equal. lia.
  Qed.

  (** An inner write changes nothing in the buffer. *)
  Lemma wi_inner b data free T buf b' r : wi b data free T -> bw_inner_write b buf = (b', r) ->
    wi b' data free T.
  Proof.
    intros (R & I & A & L & Hh) E. destruct (inner_write_spec _ _ _ _ Hh E) as (Er & Hh' & _).
    exists R. rewrite Er. auto.
  Qed.

  (** The buffer is handed over front first, in order; nothing else happens. *)
  Lemma stopped_cons a pre e : willing a -> stopped pre e -> stopped (a :: pre) e.
  Proof. intros W (p & l & -> & F & R). exists (a :: p), l. auto. Qed.
  Lemma boomed_cons a pre : willing a -> boomed pre -> boomed (a :: pre).
  Proof. intros W (p & -> & F). exists (a :: p). auto. Qed.
  Lemma stopped_refused pre e : stopped pre e -> refused pre e.
  Proof.
    intros (p & l & -> & _ & [->|(-> & k & Hk & ->)]); [left|right; split; [reflexivity|]; exists k; split; [exact Hk|]]; apply in_or_app; right; left; reflexivity.
  Qed.
  Lemma boomed_in pre : boomed pre -> In WBoom pre.
  Proof. intros (p & -> & _). apply in_or_app. right. left. reflexivity. Qed.
  Lemma flush_strong fuel : forall b data free T, wi b data free T ->
    exists b' p data' free' r pre, bw_flush_loop t fuel b = (b', r) /\ wi b' data' free' T /\
      data = p ++ data' /\
      (exists ds, ws_log (bw_sink b') = ws_log (bw_sink b) ++ map Wrote ds /\ concat ds = p) /\
      ws_script (bw_sink b) = pre ++ ws_script (bw_sink b') /\
      (exists cs, ws_calls (bw_sink b') = ws_calls (bw_sink b) ++ cs /\
         Forall (fun c => fst c <> [] /\ exists q, data = q ++ fst c) cs) /\
      (flag_ok b -> r <> Blocked -> flag_ok b') /\
      match r with
      | Ret _ => data' = [] /\ Forall willing pre
      | Err e => data' <> [] /\ io_kind_of e <> Interrupted /\ stopped pre e
      | Panic => data' <> [] /\ boomed pre /\ bw_panicked b' = true
      | Blocked => (length (ws_script (bw_sink b)) < fuel)%nat -> data' <> [] /\ ws_script (bw_sink b') = []
      | Fault => False
      end.
  Proof.
    induction fuel as [|f IH]; intros b data free T H.
    { cbn [bw_flush_loop]. exists b, [], data, free, Blocked, []. split; [reflexivity|]. split; [exact H|].
      split; [reflexivity|]. split; [exists []; cbn; rewrite app_nil_r; auto|]. split; [reflexivity|].
      split; [exists []; rewrite app_nil_r; auto|]. split; [congruence|lia]. }
    destruct (wi_ring _ _ _ _ H) as (_ & _ & EE & EB). cbn [bw_flush_loop]. rewrite EE. cbn [sbind].
    destruct (Z.eqb_spec (zlen data) 0) as [Hz|Hz].
    { apply zlen_0 in Hz. subst data. exists b, [], [], free, (Ret tt), [].
      split; [reflexivity|]. split; [exact H|]. split; [reflexivity|].
      split; [exists []; cbn; rewrite app_nil_r; auto|]. split; [reflexivity|].
      split; [exists []; rewrite app_nil_r; auto|]. split; [auto|split; [reflexivity|constructor]]. }
    assert (Hne : data <> []) by (intros ->; apply Hz; reflexivity).
    rewrite EB. cbn [sbind]. destruct (bw_inner_write b data) as [b1 r1] eqn:E1.
    pose proof (wi_inner _ _ _ _ _ _ _ H E1) as H1. pose proof H as (R & I & A & L & Hh).
    destruct (inner_write_spec _ _ _ _ Hh E1) as (Er & Hh1 & [(S0 & Es & ->)|(a & Sa & Fl & Ca & C)]).
    { exists b1, [], data, free, Blocked, []. rewrite Es. split; [reflexivity|]. split; [exact H1|].
      split; [reflexivity|]. split; [exists []; cbn; rewrite app_nil_r; auto|]. split; [reflexivity|].
      split; [exists []; rewrite app_nil_r; auto|]. split; [congruence|]. intros _. auto. }
    assert (Call : Forall (fun c : bytes * wanswer => fst c <> [] /\ exists q, data = q ++ fst c) [(data, a)]).
    { constructor; [|constructor]. cbn [fst]. split; [exact Hne|]. exists []. reflexivity. }
    destruct C as [(k & -> & -> & Lg)|[(e & -> & -> & Lg)|(-> & -> & Lg & Pk)]].
    - destruct (Z.eqb_spec (zlen (ztake k data)) 0) as [Hk|Hk].
      + apply zlen_0 in Hk. rewrite Hk in Lg.
        exists b1, [], data, free, (Err (IoSimple WriteZero)), [Take k]. split; [reflexivity|]. split; [exact H1|].
        split; [reflexivity|]. split; [exists [[]]; auto|]. split; [exact Sa|].
        split; [exists [(data, Take k)]; auto|]. split; [auto|]. split; [exact Hne|]. split; [discriminate|].
        exists [], (Take k). split; [reflexivity|]. split; [constructor|]. right. split; [reflexivity|]. exists k. split; [|reflexivity].
        destruct (Z.le_gt_cases k 0) as [Hk0|Hk0]; [exact Hk0|].
        exfalso. apply Hz. pose proof (zlen_ztake k data ltac:(lia)) as HX. rewrite Hk in HX. cbn in HX.
        pose proof (zlen_nonneg data). lia.
      + rewrite Er. destruct (consume_eq t Hbits _ _ _ I (zlen (ztake k data)) (zlen_nonneg _)) as (r' & E' & I' & A' & L').
        rewrite E'. rewrite A in A'. unfold q_remove in A'. cbn [q_data q_free] in A'.
        assert (Hkp : 0 < k).
        { destruct (Z.le_gt_cases k 0); [|lia]. exfalso. apply Hk. rewrite ztake_neg by lia. reflexivity. }
        rewrite (zlen_ztake k data) in A' by lia. rewrite zdrop_min, ztake_min in A'.
        set (b2 := {| bw_ring := r'; bw_sink := bw_sink b1; bw_panicked := bw_panicked b1 |}).
        assert (H2 : wi b2 (zdrop k data) (free ++ ztake k data) T).
        { eexists. unfold b2; cbn [bw_ring bw_sink]. split; [exact I'|].
          rewrite (zlen_ztake k data) by lia. split; [exact A'|]. split; [lia|exact Hh1]. }
        destruct (IH _ _ _ _ H2) as (b3 & p & data3 & free3 & r3 & pre & E3 & H3 & Hd & (ds & Hl & Hc) & Hs & (cs & HC & Fc) & Hf & M).
        unfold b2 in Hl, Hs, HC; cbn [bw_sink] in Hl, Hs, HC.
        exists b3, (ztake k data ++ p), data3, free3, r3, (Take k :: pre).
        split; [exact E3|]. split; [exact H3|].
        split; [rewrite <- app_assoc, <- Hd, ztake_zdrop; reflexivity|].
        split; [exists (ztake k data :: ds); split; [rewrite Hl, Lg, <- app_assoc; reflexivity|cbn; rewrite Hc; reflexivity]|].
        split; [rewrite Sa, Hs; reflexivity|].
        split; [exists ((data, Take k) :: cs); split; [rewrite HC, Ca, <- app_assoc; reflexivity|]|].
        { inversion Call; subst. constructor; [assumption|].
          eapply Forall_impl; [|exact Fc]. intros c (Hn & q & Hq). split; [exact Hn|].
          exists (ztake k data ++ q). rewrite <- app_assoc, <- Hq, ztake_zdrop. reflexivity. }
        split; [intros _; apply Hf; exact Fl|].
        destruct r3; try exact M.
        * destruct M as (M1 & M2). split; [exact M1|]. constructor; [exact Hkp|exact M2].
        * destruct M as (M1 & M2 & M3). split; [exact M1|]. split; [exact M2|]. apply stopped_cons; [exact Hkp|exact M3].
        * destruct M as (M1 & M2 & M3). split; [exact M1|]. split; [apply boomed_cons; [exact Hkp|exact M2]|exact M3].
        * intros Hlen. apply M. unfold b2; cbn [bw_sink]. rewrite Sa in Hlen. cbn [length] in Hlen. lia.
    - destruct (io_kind_of e) eqn:Ek.
      all: try (exists b1, [], data, free, (Err e), [WFail e]; split; [reflexivity|]; split; [exact H1|];
        split; [reflexivity|]; split; [exists []; cbn; rewrite app_nil_r; auto|]; split; [exact Sa|];
        split; [exists [(data, WFail e)]; auto|]; split; [auto|]; split; [exact Hne|]; split; [rewrite Ek; discriminate|];
        exists [], (WFail e); auto).
      destruct (IH _ _ _ _ H1) as (b3 & p & data3 & free3 & r3 & pre & E3 & H3 & Hd & (ds & Hl & Hc) & Hs & (cs & HC & Fc) & Hf & M).
      exists b3, p, data3, free3, r3, (WFail e :: pre).
      split; [exact E3|]. split; [exact H3|]. split; [exact Hd|]. split; [exists ds; rewrite Hl, Lg; auto|].
      split; [rewrite Sa, Hs; reflexivity|].
      split; [exists ((data, WFail e) :: cs); split; [rewrite HC, Ca, <- app_assoc; reflexivity|]|].
      { inversion Call; subst. constructor; assumption. }
      split; [intros _; apply Hf; exact Fl|].
      destruct r3; try exact M.
      + destruct M as (M1 & M2). split; [exact M1|]. constructor; [exact Ek|exact M2].
      + destruct M as (M1 & M2 & M3). split; [exact M1|]. split; [exact M2|]. apply stopped_cons; [exact Ek|exact M3].
      + destruct M as (M1 & M2 & M3). split; [exact M1|]. split; [apply boomed_cons; [exact Ek|exact M2]|exact M3].
      + intros Hlen. apply M. rewrite Sa in Hlen. cbn [length] in Hlen. lia.
    - exists b1, [], data, free, Panic, [WBoom]. split; [reflexivity|]. split; [exact H1|]. split; [reflexivity|].
      split; [exists []; cbn; rewrite app_nil_r; auto|]. split; [exact Sa|].
      split; [exists [(data, WBoom)]; auto|]. split; [auto|]. split; [exact Hne|]. split; [exists []; auto|exact Pk].
  Qed.
  Lemma flush_spec fuel : forall b data free T, wi b data free T ->
    exists b' p data' free' r pre, bw_flush_loop t fuel b = (b', r) /\ wi b' data' free' T /\
      data = p ++ data' /\
      (exists ds, ws_log (bw_sink b') = ws_log (bw_sink b) ++ map Wrote ds /\ concat ds = p) /\
      ws_script (bw_sink b) = pre ++ ws_script (bw_sink b') /\
      (exists cs, ws_calls (bw_sink b') = ws_calls (bw_sink b) ++ cs /\
         Forall (fun c => fst c <> [] /\ exists q, data = q ++ fst c) cs) /\
      (flag_ok b -> r <> Blocked -> flag_ok b') /\
      match r with
      | Ret _ => data' = []
      | Err e => data' <> [] /\ io_kind_of e <> Interrupted /\ refused pre e
      | Panic => data' <> [] /\ In WBoom pre /\ bw_panicked b' = true
      | Blocked => (length (ws_script (bw_sink b)) < fuel)%nat -> data' <> [] /\ ws_script (bw_sink b') = []
      | Fault => False
      end.
  Proof.
    intros b data free T H. destruct (flush_strong fuel b data free T H) as (b' & p & data' & free' & r & pre & E & H' & Hd & Hl & Hs & Hc & Hf & M).
    exists b', p, data', free', r, pre. do 7 (split; [assumption|]). destruct r; auto; intuition (auto using stopped_refused, boomed_in).
  Qed.

  (** Positions up to [X] are exact, or all are until a build with overflow
      checks panics. *)
  Definition room (X : Z) : Prop := pos_ok t cap X \/ (good_target t /\ exact_positions t cap).
  Lemma room_le X Y : room Y -> X <= Y -> room X.
  Proof. intros [H|H] L; [left; exact (pos_ok_le t Hbits _ _ _ H L)|right; exact H]. Qed.
  (** The write position would reach 2^64 in a build that checks. *)
  Definition over (X : Z) : Prop := t_checks t = true /\ 2 ^ 64 <= X.
  Lemma room_cases X : room X -> pos_ok t cap X \/ (good_target t /\ over X).
  Proof.
    intros [H|[Hg H]]; [left; exact H|]. destruct (Z.lt_ge_cases X (2 ^ 64)) as [L|L].
    - left. apply exact_pos; auto.
    - destruct (t_checks t) eqn:C; [right; split; [exact Hg|split; [exact C|exact L]]|left; apply exact_pos; auto].
  Qed.

  (** write, completely. *)
  Lemma write_spec b data free T buf : wi b data free T -> room (T + zlen buf) ->
    exists b' data' free' T' r, bw_write t b buf = (b', r) /\ wi b' data' free' T' /\
      ((zlen buf < zlen free /\ bw_sink b' = bw_sink b /\ bw_panicked b' = bw_panicked b /\
          T' = T + zlen buf /\ data' = data ++ buf /\ r = Ret (zlen buf)) \/
       (zlen buf = zlen free /\ T' = T /\ data' = data /\ bw_inner_write b buf = (b', r)) \/
       (zlen free < zlen buf /\ exists b1 r1, bw_flush_buf t b = (b1, r1) /\
          match r1 with
          | Ret _ =>
            (zlen buf < cap /\ bw_sink b' = bw_sink b1 /\ bw_panicked b' = bw_panicked b1 /\
               T' = T + zlen buf /\ data' = buf /\ r = Ret (zlen buf)) \/
            (cap <= zlen buf /\ T' = T /\ data' = [] /\ bw_inner_write b1 buf = (b', r))
          | Err e => b' = b1 /\ T' = T /\ r = Err e
          | Panic => b' = b1 /\ T' = T /\ r = Panic
          | Blocked => b' = b1 /\ T' = T /\ r = Blocked
          | Fault => False
          end) \/
       (over (T + zlen buf) /\ T' = T /\ r = Panic /\
          ((zlen buf < zlen free /\ b' = b /\ data' = data) \/
           (zlen free < zlen buf /\ bw_flush_buf t b = (b', Ret tt) /\ data' = [])))).
  Proof.
    intros H Hp. destruct (wi_ring _ _ _ _ H) as (_ & EW & _ & _).
    unfold bw_write. rewrite EW. cbn [sbind]. pose proof (zlen_nonneg buf) as Hb0.
    assert (Over : forall b0 data0 free0, wi b0 data0 free0 T -> zlen buf < zlen free0 ->
      good_target t -> over (T + zlen buf) -> ring_write t (bw_ring b0) buf = Panic).
    { intros b0 data0 free0 (R & I & A & L & Hh) Hlt Hg [Hck Ho].
      pose proof (absq_free_len t Hbits _ _ _ I) as HF. rewrite A in HF. cbn [q_free] in HF.
      apply (write_over t Hg _ _ _ buf I Hck). lia. }
    assert (Buffered : forall b0 data0 free0, pos_ok t cap (T + zlen buf) -> wi b0 data0 free0 T -> zlen buf < zlen free0 ->
      exists r', ring_write t (bw_ring b0) buf = Ret (r', zlen buf) /\
        wi {| bw_ring := r'; bw_sink := bw_sink b0; bw_panicked := bw_panicked b0 |}
           (data0 ++ buf) (zdrop (zlen buf) free0) (T + zlen buf)).
    { intros b0 data0 free0 Hp' (R & I & A & L & Hh) Hlt.
      pose proof (absq_free_len t Hbits _ _ _ I) as HF. rewrite A in HF. cbn [q_free] in HF.
      destruct (write_eq t Hbits _ _ _ buf I) as (r' & E & I' & A' & L').
      { rewrite L. eapply (pos_ok_le t Hbits); [exact Hp'|]. lia. }
      replace (Z.min (zlen buf) (r_len (bw_ring b0) - (T - R))) with (zlen buf) in * by lia.
      exists r'. split; [exact E|]. exists R. cbn [bw_ring bw_sink]. split; [exact I'|].
      split; [|split; [lia|exact Hh]]. rewrite A', A. unfold q_append. cbn [q_data q_free].
      rewrite ztake_all by lia. reflexivity. }
    destruct (Z.ltb_spec (zlen free) (zlen buf)) as [Hlt|Hge].
    - unfold bw_flush_buf.
      destruct (flush_spec (S (length (ws_script (bw_sink b)))) _ _ _ _ H)
        as (b1 & p & data1 & free1 & r1 & pre & E1 & H1 & _ & _ & _ & _ & _ & M). rewrite E1. cbn [sbind].
      destruct r1 as [u|e| | |]; try contradiction M.
      + subst data1. destruct (wi_ring _ _ _ _ H1) as (_ & EW1 & _ & _). rewrite EW1. cbn [sbind].
        pose proof (wi_lens _ _ _ _ H1) as HL1. change (zlen (@nil byte)) with 0 in HL1.
        destruct (Z.leb_spec (zlen free1) (zlen buf)) as [Hle|Hgt].
        * destruct (bw_inner_write b1 buf) as [b2 r2] eqn:E2. pose proof (wi_inner _ _ _ _ _ _ _ H1 E2) as H2.
          exists b2, [], free1, T, r2. split; [reflexivity|]. split; [exact H2|]. right. right. left. split; [exact Hlt|].
          exists b1, (Ret u). split; [reflexivity|]. right. rewrite E2. split; [lia|]. auto.
        * destruct (room_cases _ Hp) as [Hp'|[Hg Ho]].
          2:{ rewrite (Over _ _ _ H1 Hgt Hg Ho). exists b1, [], free1, T, Panic. split; [reflexivity|]. split; [exact H1|].
              right. right. right. split; [exact Ho|]. split; [reflexivity|]. split; [reflexivity|]. right.
              destruct u. auto. }
          destruct (Buffered _ _ _ Hp' H1 Hgt) as (r' & E' & H'). rewrite E'. cbn [app] in H'.
          do 5 eexists. split; [reflexivity|]. split; [exact H'|]. right. right. left. split; [exact Hlt|].
          exists b1, (Ret u). split; [reflexivity|]. left. split; [lia|]. auto.
      + exists b1, data1, free1, T, (Err e). split; [reflexivity|]. split; [exact H1|]. right. right. left. split; [exact Hlt|].
        exists b1, (Err e). auto.
      + exists b1, data1, free1, T, Panic. split; [reflexivity|]. split; [exact H1|]. right. right. left. split; [exact Hlt|].
        exists b1, Panic. auto.
      + exists b1, data1, free1, T, Blocked. split; [reflexivity|]. split; [exact H1|]. right. right. left. split; [exact Hlt|].
        exists b1, Blocked. auto.
    - cbn [sbind]. rewrite EW. cbn [sbind]. destruct (Z.leb_spec (zlen free) (zlen buf)) as [Hle|Hgt].
      + destruct (bw_inner_write b buf) as [b2 r2] eqn:E2. pose proof (wi_inner _ _ _ _ _ _ _ H E2) as H2.
        exists b2, data, free, T, r2. split; [reflexivity|]. split; [exact H2|]. right. left. split; [lia|]. auto.
      + destruct (room_cases _ Hp) as [Hp'|[Hg Ho]].
        2:{ rewrite (Over _ _ _ H Hgt Hg Ho). exists b, data, free, T, Panic. split; [reflexivity|]. split; [exact H|].
            right. right. right. split; [exact Ho|]. split; [reflexivity|]. split; [reflexivity|]. left. auto. }
        destruct (Buffered _ _ _ Hp' H Hgt) as (r' & E' & H'). rewrite E'.
        do 5 eexists. split; [reflexivity|]. split; [exact H'|]. left. auto 10.
  Qed.

  Lemma accepted_flush s s' ds p : ws_log s' = ws_log s ++ map Wrote ds -> concat ds = p ->
    accepted s' = accepted s ++ p.
  Proof. intros H1 H2. rewrite (accepted_app _ _ _ H1), flat_wrote, H2. reflexivity. Qed.

  (** What a write does to the bytes: a front part of the buffer was handed
      over, and either the caller's bytes joined the buffer at the end, or a
      front part of them was handed over directly. *)
  Lemma write_bytes b data free T buf : wi b data free T -> room (T + zlen buf) ->
    exists b' data' free' T' r p rest q, bw_write t b buf = (b', r) /\ wi b' data' free' T' /\
      data = p ++ rest /\
      ((accepted (bw_sink b') = accepted (bw_sink b) ++ p ++ q /\ data' = rest) \/
       (accepted (bw_sink b') = accepted (bw_sink b) ++ p /\ data' = rest ++ q /\ q = buf)) /\
      (zlen free < zlen buf -> match r with Ret _ => rest = [] | _ => rest = [] \/ q = [] end) /\
      (zlen buf <= zlen free -> p = []) /\
      (zlen buf < zlen free -> (data' = data ++ buf /\ r = Ret (zlen buf)) \/ q = []) /\
      (flag_ok b -> r <> Blocked -> flag_ok b') /\
      match r with
      | Ret n => q = ztake n buf /\ n = zlen q /\ T <= T' <= T + n /\
                 (zlen q < zlen buf -> rest = data' /\ (zlen buf = zlen free \/ rest = []))
      | Err e => q = [] /\ T' = T /\
                 (exists pre, ws_script (bw_sink b) = pre ++ ws_script (bw_sink b') /\ refused pre e) /\
                 (io_kind_of e = Interrupted -> zlen buf = zlen free \/ rest = [])
      | Panic => q = [] /\ T' = T /\ (bw_panicked b' = true \/ over (T + zlen buf))
      | Blocked => q = [] /\ T' = T /\ ws_script (bw_sink b') = []
      | Fault => False
      end /\
      (exists pre, ws_script (bw_sink b) = pre ++ ws_script (bw_sink b') /\
         match r with
         | Ret n => q = buf \/ exists pre0 k, pre = pre0 ++ [Take k] /\ q = ztake k buf
         | Err _ => pre <> []
         | _ => True
         end).
  Proof.
    intros H Hp. destruct (write_spec _ _ _ _ _ H Hp) as (b' & data' & free' & T' & r & E & H' & C).
    pose proof (zlen_nonneg buf) as Hb0.
    (* a direct write from state [b0], all of whose buffer is [data0] *)
    assert (Direct : forall b0 data0 free0, wi b0 data0 free0 T -> bw_inner_write b0 buf = (b', r) ->
      exists q,
        accepted (bw_sink b') = accepted (bw_sink b0) ++ q /\
        (flag_ok b0 -> r <> Blocked -> flag_ok b') /\
        match r with
        | Ret n => q = ztake n buf /\ n = zlen q
        | Err e => q = [] /\ (exists pre, ws_script (bw_sink b0) = pre ++ ws_script (bw_sink b') /\ refused pre e)
        | Panic => q = [] /\ bw_panicked b' = true
        | Blocked => q = [] /\ ws_script (bw_sink b') = []
        | Fault => False
        end /\
        exists pre, ws_script (bw_sink b0) = pre ++ ws_script (bw_sink b') /\
          match r with
          | Ret n => exists pre0 k, pre = pre0 ++ [Take k] /\ q = ztake k buf
          | Err _ => pre <> []
          | _ => True
          end).
    { intros b0 data0 free0 (R & I & A & L & Hh) E0.
      destruct (inner_write_spec _ _ _ _ Hh E0) as (Er & Hh1 & [(S0 & Es & ->)|(a & Sa & Fl & Ca & C0)]).
      - exists []. rewrite Es, app_nil_r. split; [reflexivity|]. split; [congruence|]. split; [auto|].
        exists []. auto.
      - destruct C0 as [(k & -> & -> & Lg)|[(e & -> & -> & Lg)|(-> & -> & Lg & Pk)]].
        + exists (ztake k buf). rewrite (accepted_app _ _ _ Lg). cbn [flat_map event_bytes]. rewrite app_nil_r.
          split; [reflexivity|]. split; [auto|]. split.
          * split; [|reflexivity]. destruct (Z.le_gt_cases k 0).
            -- rewrite (ztake_neg k buf) by lia. reflexivity.
            -- rewrite zlen_ztake by lia. rewrite ztake_min. reflexivity.
          * exists [Take k]. split; [exact Sa|]. exists [], k. auto.
        + exists []. unfold accepted. rewrite Lg, app_nil_r. split; [reflexivity|]. split; [auto|]. split.
          * split; [reflexivity|]. exists [WFail e]. split; [exact Sa|]. left. left. reflexivity.
          * exists [WFail e]. split; [exact Sa|discriminate].
        + exists []. unfold accepted. rewrite Lg, app_nil_r. split; [reflexivity|]. split; [auto|]. split; [auto|].
          exists [WBoom]. split; [exact Sa|exact Logic.I]. }
    destruct C as [(Hlt & Es & Ep & -> & -> & ->)|[(Heq & -> & -> & Ei)|[(Hgt & b1 & r1 & E1 & C)|(Ho & -> & -> & C)]]].
    - exists b', (data ++ buf), free', (T + zlen buf), (Ret (zlen buf)), [], data, buf.
      split; [exact E|]. split; [exact H'|]. split; [reflexivity|].
      split; [right; rewrite Es, app_nil_r; auto|]. split; [lia|]. split; [auto|]. split; [auto|].
      split; [intros Hf _; unfold flag_ok; rewrite Es, Ep; exact Hf|].
      split; [rewrite ztake_all by lia; repeat split; lia|].
      exists []. rewrite Es. auto.
    - destruct (Direct _ _ _ H Ei) as (q & Ha & Hf & M & pre & Hs & Hpre).
      exists b', data, free', T, r, [], data, q. split; [exact E|]. split; [exact H'|]. split; [reflexivity|].
      split; [left; auto|]. split; [lia|]. split; [auto|]. split; [lia|]. split; [exact Hf|].
      split.
      + destruct r; try contradiction M.
        * destruct M as [M1 M2]. split; [exact M1|]. split; [exact M2|]. pose proof (zlen_nonneg q).
          split; [lia|]. auto.
        * destruct M as [M1 M2]. split; [exact M1|]. split; [reflexivity|]. split; [exact M2|]. auto.
        * destruct M. auto.
        * destruct M. auto.
      + exists pre. split; [exact Hs|]. destruct r; auto.
    - unfold bw_flush_buf in E1.
      destruct (flush_spec (S (length (ws_script (bw_sink b)))) _ _ _ _ H)
        as (b2 & p & data1 & free1 & r2 & pre & E2 & H1 & Hd & (ds & Hl & Hc) & Hs & _ & Hf & M).
      rewrite E1 in E2. injection E2 as <- <-. pose proof (accepted_flush _ _ _ _ Hl Hc) as Ha.
      destruct r1 as [u|e| | |]; try contradiction M.
      + subst data1. rewrite app_nil_r in Hd. subst p.
        destruct C as [(Hlt & Es & Ep & -> & -> & ->)|(Hge & -> & -> & Ei)].
        * exists b', buf, free', (T + zlen buf), (Ret (zlen buf)), data, [], buf.
          split; [exact E|]. split; [exact H'|]. split; [rewrite app_nil_r; reflexivity|].
          split; [right; rewrite Es, Ha; auto|]. split; [reflexivity|]. split; [lia|]. split; [lia|].
          split; [intros Hf0 _; unfold flag_ok; rewrite Es, Ep; apply Hf; [exact Hf0|discriminate]|].
          split; [rewrite ztake_all by lia; repeat split; lia|].
          exists pre. rewrite Es. auto.
        * destruct (Direct _ _ _ H1 Ei) as (q & Ha' & Hf' & M' & pre' & Hs' & Hpre').
          exists b', [], free', T, r, data, [], q. split; [exact E|]. split; [exact H'|].
          split; [rewrite app_nil_r; reflexivity|].
          split; [left; rewrite Ha', Ha, <- app_assoc; auto|]. split; [intros _; destruct r; auto|]. split; [lia|]. split; [lia|].
          split; [intros Hf0 Hr; apply Hf'; [apply Hf; [exact Hf0|discriminate]|exact Hr]|].
          split.
          -- destruct r; try contradiction M'.
             ++ destruct M' as [M1 M2]. split; [exact M1|]. split; [exact M2|]. pose proof (zlen_nonneg q).
                split; [lia|]. auto.
             ++ destruct M' as [M1 (pre2 & M2 & M3)]. split; [exact M1|]. split; [reflexivity|]. split; [|auto].
                exists (pre ++ pre2). split; [rewrite Hs, M2, app_assoc; reflexivity|].
                destruct M3 as [M3|(M3 & k & M4 & M5)]; [left; apply in_or_app; right; exact M3|right; split; [exact M3|]].
                exists k. split; [exact M4|]. apply in_or_app. right. exact M5.
             ++ destruct M'. auto.
             ++ destruct M'. auto.
          -- exists (pre ++ pre'). split; [rewrite Hs, Hs', app_assoc; reflexivity|].
             destruct r; auto; [|intros Hx; apply app_eq_nil in Hx; tauto].
             right. destruct Hpre' as (pre0 & k & -> & Hq). exists (pre ++ pre0), k. rewrite app_assoc. auto.
      + destruct C as (-> & -> & ->). destruct M as (M1 & M2 & M3).
        exists b1, data', free', T, (Err e), p, data', []. 
        assert (data' = data1).
        { destruct (wi_ring _ _ _ _ H') as (_ & _ & _ & X1). destruct (wi_ring _ _ _ _ H1) as (_ & _ & _ & X2). congruence. }
        subst data1. split; [exact E|]. split; [exact H'|]. split; [exact Hd|].
        split; [left; rewrite app_nil_r; auto|]. split; [auto|]. split; [lia|]. split; [lia|].
        split; [intros Hf0 Hr; apply Hf; [exact Hf0|congruence]|].
        split; [split; [reflexivity|]; split; [reflexivity|]; split; [exists pre; auto|congruence]|].
        exists pre. split; [exact Hs|]. destruct M3 as [M3|(_ & k & _ & M3)]; destruct pre; try contradiction M3; discriminate.
      + destruct C as (-> & -> & ->). destruct M as (M1 & M2 & M3).
        exists b1, data', free', T, Panic, p, data', [].
        assert (data' = data1).
        { destruct (wi_ring _ _ _ _ H') as (_ & _ & _ & X1). destruct (wi_ring _ _ _ _ H1) as (_ & _ & _ & X2). congruence. }
        subst data1. split; [exact E|]. split; [exact H'|]. split; [exact Hd|].
        split; [left; rewrite app_nil_r; auto|]. split; [auto|]. split; [lia|]. split; [lia|].
        split; [intros Hf0 Hr; apply Hf; [exact Hf0|congruence]|].
        split; [auto|]. exists pre. auto.
      + destruct C as (-> & -> & ->). destruct M as (M1 & M2); [lia|].
        exists b1, data', free', T, Blocked, p, data', [].
        assert (data' = data1).
        { destruct (wi_ring _ _ _ _ H') as (_ & _ & _ & X1). destruct (wi_ring _ _ _ _ H1) as (_ & _ & _ & X2). congruence. }
        subst data1. split; [exact E|]. split; [exact H'|]. split; [exact Hd|].
        split; [left; rewrite app_nil_r; auto|]. split; [auto|]. split; [lia|]. split; [lia|].
        split; [intros Hf0 Hr; apply Hf; [exact Hf0|congruence]|].
        split; [auto|]. exists pre. auto.
    - destruct C as [(Hlt & -> & ->)|(Hgt & E1 & ->)].
      + exists b, data, free', T, Panic, [], data, []. split; [exact E|]. split; [exact H'|]. split; [reflexivity|].
        split; [left; rewrite app_nil_r; auto|]. split; [auto|]. split; [auto|]. split; [auto|]. split; [auto|].
        split; [auto|]. exists []. auto.
      + unfold bw_flush_buf in E1.
        destruct (flush_spec (S (length (ws_script (bw_sink b)))) _ _ _ _ H)
          as (b2 & p & data1 & free1 & r2 & pre & E2 & H1 & Hd & (ds & Hl & Hc) & Hs & _ & Hf & M).
        rewrite E1 in E2. injection E2 as <- <-. pose proof (accepted_flush _ _ _ _ Hl Hc) as Ha. subst data1.
        exists b', [], free', T, Panic, p, [], []. split; [exact E|]. split; [exact H'|]. split; [exact Hd|].
        split; [left; rewrite app_nil_r; auto|]. split; [auto|]. split; [lia|]. split; [lia|].
        split; [intros Hf0 _; apply Hf; [exact Hf0|discriminate]|]. split; [auto|]. exists pre. auto.
  Qed.

  (** A write that meets a non-empty buffer and fills it exactly. *)
  Definition exact_fit (data free buf : bytes) : Prop := data <> [] /\ buf <> [] /\ zlen buf = zlen free.

  Definition told {A} (r : out A Z) (buf : bytes) : bytes := match r with Ret n => ztake n buf | _ => [] end.

  Lemma write_moves b data free T buf : wi b data free T -> room (T + zlen buf) ->
    exists b' data' free' T' r, bw_write t b buf = (b', r) /\ wi b' data' free' T' /\
      Permutation (accepted (bw_sink b) ++ data ++ told r buf) (accepted (bw_sink b') ++ data') /\
      (~ exact_fit data free buf ->
         accepted (bw_sink b) ++ data ++ told r buf = accepted (bw_sink b') ++ data') /\
      (flag_ok b -> r <> Blocked -> flag_ok b') /\
      (exists pre, ws_script (bw_sink b) = pre ++ ws_script (bw_sink b') /\
        match r with
        | Ret n => 0 <= n <= zlen buf /\ T <= T' <= T + n /\
            (n < zlen buf -> ~ exact_fit data free buf -> data' = []) /\
            (n = 0 -> buf <> [] -> exists k, k <= 0 /\ In (Take k) pre)
        | Err e => T' = T /\ refused pre e /\ pre <> [] /\
            (io_kind_of e = Interrupted -> ~ exact_fit data free buf -> data' = [] \/ buf = [])
        | Panic => T' = T /\ (bw_panicked b' = true \/ over (T + zlen buf))
        | Blocked => T' = T /\ ws_script (bw_sink b') = []
        | Fault => False
        end).
  Proof.
    intros H Hp. destruct (write_bytes _ _ _ _ _ H Hp) as
      (b' & data' & free' & T' & r & p & rest & q & E & H' & Hd & C & Hflush & Hnof & Hbuf & Hf & M & pre & Hs & Hpre).
    assert (Hq : told r buf = q).
    { destruct r; cbn [told]; try contradiction M; destruct M as (M & _); symmetry; exact M. }
    assert (Ord : ~ exact_fit data free buf ->
         accepted (bw_sink b) ++ data ++ told r buf = accepted (bw_sink b') ++ data').
    { intros Hne. rewrite Hq, Hd. destruct C as [(-> & ->)|(-> & -> & Hqb)].
      - assert (Hor : rest = [] \/ q = []).
        { destruct (Z.lt_trichotomy (zlen buf) (zlen free)) as [Hlt|[Heq|Hgt]].
          - destruct (Hbuf Hlt) as [[Hx Hr]|Hx]; [|right; exact Hx]. pose proof (Hnof ltac:(lia)) as Hp0. subst p. cbn [app] in Hd. subst rest.
            right. apply (f_equal zlen) in Hx. rewrite zlen_app in Hx. assert (buf = []) by (apply zlen_0; lia). subst buf.
            rewrite <- Hq. subst r. reflexivity.
          - pose proof (Hnof ltac:(lia)) as Hp0. subst p. cbn [app] in Hd. subst rest.
            destruct data as [|x data]; [left; reflexivity|]. destruct buf as [|y buf].
            + right. rewrite <- Hq. destruct r; try reflexivity. unfold told, ztake. apply firstn_nil.
            + exfalso. apply Hne. split; [discriminate|]. split; [discriminate|exact Heq].
          - specialize (Hflush Hgt). destruct r; auto. }
        destruct Hor as [-> | ->]; rewrite ?app_nil_r, ?app_assoc; reflexivity.
      - rewrite !app_assoc. reflexivity. }
    assert (Perm : Permutation (accepted (bw_sink b) ++ data ++ told r buf) (accepted (bw_sink b') ++ data')).
    { rewrite Hq, Hd. destruct C as [(-> & ->)|(-> & -> & _)].
      - rewrite <- !app_assoc. do 2 apply Permutation_app_head. apply Permutation_app_comm.
      - rewrite <- !app_assoc. apply Permutation_refl. }
    exists b', data', free', T', r. split; [exact E|]. split; [exact H'|]. split; [exact Perm|]. split; [exact Ord|].
    split; [exact Hf|]. exists pre. split; [exact Hs|].
    assert (Hrest : ~ exact_fit data free buf -> zlen buf = zlen free -> buf <> [] -> rest = []).
    { intros Hne Heq Hb. pose proof (Hnof ltac:(lia)) as Hp0. subst p. cbn [app] in Hd. subst rest.
      destruct data as [|x data]; [reflexivity|]. exfalso. apply Hne. split; [discriminate|]. auto. }
    destruct r as [n|e| | |]; try contradiction M.
    - destruct M as (M1 & M2 & M3 & M4). pose proof (zlen_nonneg q) as Hq0.
      assert (Hn : n <= zlen buf).
      { rewrite M2, M1. rewrite zlen_ztake by lia. lia. }
      split; [lia|]. split; [exact M3|]. split.
      + intros Hlt Hne. destruct (M4 ltac:(lia)) as (<- & [Heq|Hr]); [|exact Hr].
        apply Hrest; [exact Hne|exact Heq|]. intros ->. cbn in Hlt. lia.
      + intros -> Hb. destruct Hpre as [Hx|(pre0 & k & -> & Hx)].
        * exfalso. apply Hb. rewrite <- Hx. apply zlen_0. lia.
        * exists k. split; [|apply in_or_app; right; left; reflexivity].
          destruct (Z.le_gt_cases k 0) as [Hk|Hk]; [exact Hk|]. exfalso. apply Hb. apply zlen_0.
          rewrite Hx in M2. rewrite zlen_ztake in M2 by lia. pose proof (zlen_nonneg buf). lia.
    - destruct M as (M1 & M2 & (pre' & M3 & M4) & M5). split; [exact M2|].
      assert (pre' = pre) by (rewrite Hs in M3; apply app_inv_tail in M3; auto). subst pre'.
      split; [exact M4|]. split; [exact Hpre|]. intros Hi Hne. destruct buf as [|y buf]; [right; reflexivity|left].
      assert (Hr : rest = []) by (destruct (M5 Hi) as [Heq|Hr]; [apply Hrest; [exact Hne|exact Heq|discriminate]|exact Hr]).
      destruct C as [(_ & ->)|(_ & -> & Hx)]; [exact Hr|rewrite M1 in Hx; discriminate Hx].
    - destruct M as (_ & M). exact M.
    - destruct M as (_ & M). exact M.
  Qed.

  Lemma refused_app pre pre' e : refused pre' e -> refused (pre ++ pre') e.
  Proof.
    intros [H|(H & k & Hk & Hi)]; [left; apply in_or_app; right; exact H|right].
    split; [exact H|]. exists k. split; [exact Hk|]. apply in_or_app. right. exact Hi.
  Qed.

  Lemma write_all_spec fuel : forall b buf tld data free T, wi b data free T -> room (T + zlen buf) ->
    exists b' more data' free' T' r, bw_write_all_loop t fuel b buf tld = (b', tld ++ more, r) /\
      wi b' data' free' T' /\ T <= T' <= T + zlen more /\ (exists rest, buf = more ++ rest) /\
      Permutation (accepted (bw_sink b) ++ data ++ more) (accepted (bw_sink b') ++ data') /\
      (~ exact_fit data free buf -> accepted (bw_sink b) ++ data ++ more = accepted (bw_sink b') ++ data') /\
      (flag_ok b -> r <> Blocked -> flag_ok b') /\
      (exists pre, ws_script (bw_sink b) = pre ++ ws_script (bw_sink b') /\
        match r with
        | Ret _ => more = buf
        | Err e => refused pre e /\ io_kind_of e <> Interrupted
        | Panic => bw_panicked b' = true \/ over (T + zlen buf)
        | Blocked => (length buf + length (ws_script (bw_sink b)) < fuel)%nat -> ws_script (bw_sink b') = []
        | Fault => False
        end).
  Proof.
    induction fuel as [|f IH]; intros b buf tld data free T H Hp.
    { destruct buf as [|x buf]; cbn [bw_write_all_loop].
      all: exists b, [], data, free, T; eexists; rewrite !app_nil_r; split; [reflexivity|]; split; [exact H|];
        split; [cbn; lia|]; split; [eexists; reflexivity|]; split; [apply Permutation_refl|]; split; [reflexivity|];
        split; [auto|]; exists []; split; [reflexivity|]; cbn; auto; lia. }
    destruct buf as [|x buf].
    { cbn [bw_write_all_loop]. exists b, [], data, free, T, (Ret tt). rewrite !app_nil_r. split; [reflexivity|].
      split; [exact H|]. split; [cbn; lia|]. split; [exists []; reflexivity|]. split; [apply Permutation_refl|].
      split; [reflexivity|]. split; [auto|]. exists []. auto. }
    set (buf0 := x :: buf) in *.
    assert (Hb0 : buf0 <> []) by discriminate.
    replace (bw_write_all_loop t (S f) b buf0 tld) with
      (let '(b1, r) := bw_write t b buf0 in
        match r with
        | Ret n =>
          if n =? 0 then (b1, tld, Err (IoSimple WriteZero))
          else if zlen buf0 <? n then (b1, tld ++ buf0, Panic)
          else bw_write_all_loop t f b1 (zdrop n buf0) (tld ++ ztake n buf0)
        | Err e => match io_kind_of e with
                   | Interrupted => bw_write_all_loop t f b1 buf0 tld
                   | _ => (b1, tld, Err e)
                   end
        | Panic => (b1, tld, Panic)
        | Fault => (b1, tld, Fault)
        | Blocked => (b1, tld, Blocked)
        end) by reflexivity.
    destruct (write_moves _ _ _ _ _ H Hp) as (b1 & data1 & free1 & T1 & r1 & E1 & H1 & Pm & Ord & Fl & pre & Hs & M).
    rewrite E1. destruct r1 as [n|e| | |]; try contradiction M; cbn [told] in Pm, Ord.
    - destruct M as (Hn & HT & Hd1 & Hz). destruct (Z.eqb_spec n 0) as [->|Hn0].
      + rewrite (ztake_neg 0) in Pm, Ord by lia.
        exists b1, [], data1, free1, T1, (Err (IoSimple WriteZero)). rewrite (app_nil_r tld). split; [reflexivity|].
        split; [exact H1|]. split; [change (zlen (@nil byte)) with 0; lia|]. split; [exists buf0; reflexivity|].
        split; [exact Pm|]. split; [exact Ord|]. split; [intros X _; apply Fl; [exact X|discriminate]|].
        exists pre. split; [exact Hs|]. split; [|discriminate]. right. split; [reflexivity|]. apply Hz; auto.
      + destruct (Z.ltb_spec (zlen buf0) n); [lia|].
        assert (Hzd : zlen (zdrop n buf0) = zlen buf0 - n) by (rewrite zlen_zdrop by lia; lia).
        assert (Hzt : zlen (ztake n buf0) = n) by (rewrite zlen_ztake by lia; lia).
        destruct (IH b1 (zdrop n buf0) (tld ++ ztake n buf0) data1 free1 T1 H1) as
          (b2 & more & data2 & free2 & T2 & r2 & E2 & H2 & HT2 & (rest & Hr) & Pm2 & Ord2 & Fl2 & pre2 & Hs2 & M2).
        { eapply room_le; [exact Hp|]. lia. }
        exists b2, (ztake n buf0 ++ more), data2, free2, T2, r2. rewrite app_assoc. split; [exact E2|].
        split; [exact H2|]. split; [rewrite zlen_app; lia|].
        split; [exists rest; rewrite <- app_assoc, <- Hr, ztake_zdrop; reflexivity|].
        split; [|split; [|split]].
        * eapply Permutation_trans; [apply perm_step, Pm|exact Pm2].
        * intros Hne. rewrite <- Ord2.
          -- apply eq_step, Ord, Hne.
          -- destruct (Z.eq_dec n (zlen buf0)) as [->|Hnn].
             ++ rewrite zdrop_all by lia. intros (_ & X & _). apply X. reflexivity.
             ++ rewrite (Hd1 ltac:(lia) Hne). intros (X & _). apply X. reflexivity.
        * intros X. apply Fl2. apply Fl; [exact X|discriminate].
        * exists (pre ++ pre2). split; [rewrite Hs, Hs2, app_assoc; reflexivity|].
          destruct r2; try exact M2.
          -- rewrite M2. apply ztake_zdrop.
          -- destruct M2 as [M2 M3]. split; [apply refused_app; exact M2|exact M3].
          -- destruct M2 as [M2|[M2 M3]]; [left; exact M2|right; split; [exact M2|lia]].
          -- intros Hlt. apply M2. rewrite Hs in Hlt. rewrite app_length in Hlt.
             unfold zdrop. rewrite skipn_length. assert (0 < Z.to_nat n <= length buf0)%nat by (unfold zlen in *; lia). lia.
    - destruct M as (-> & Rf & Hpre & Hint). rewrite app_nil_r in Pm, Ord.
      destruct (io_kind_of e) eqn:Ek.
      all: try (exists b1, [], data1, free1, T, (Err e); rewrite !app_nil_r; split; [reflexivity|];
        split; [exact H1|]; split; [cbn; lia|]; split; [exists buf0; reflexivity|];
        split; [exact Pm|]; split; [exact Ord|]; split; [intros X _; apply Fl; [exact X|discriminate]|];
        exists pre; split; [exact Hs|]; split; [exact Rf|rewrite Ek; discriminate]).
      destruct (IH b1 buf0 tld data1 free1 T H1 Hp) as
          (b2 & more & data2 & free2 & T2 & r2 & E2 & H2 & HT2 & (rest & Hr) & Pm2 & Ord2 & Fl2 & pre2 & Hs2 & M2).
      exists b2, more, data2, free2, T2, r2. split; [exact E2|]. split; [exact H2|]. split; [exact HT2|].
      split; [exists rest; exact Hr|]. split; [|split; [|split]].
      + eapply Permutation_trans; [apply (perm_step _ _ []); rewrite app_nil_r; exact Pm|exact Pm2].
      + intros Hne. rewrite <- Ord2.
        * apply (eq_step _ _ []). rewrite app_nil_r. apply Ord, Hne.
        * destruct (Hint eq_refl Hne) as [-> |X]; [|contradiction]. intros (X & _). apply X. reflexivity.
      + intros X. apply Fl2. apply Fl; [exact X|discriminate].
      + exists (pre ++ pre2). split; [rewrite Hs, Hs2, app_assoc; reflexivity|].
        destruct r2; try exact M2.
        * destruct M2 as [M2 M3]. split; [apply refused_app; exact M2|exact M3].
        * intros Hlt. apply M2. rewrite Hs in Hlt. rewrite app_length in Hlt. destruct pre; [congruence|]. cbn [length] in Hlt. lia.
    - destruct M as (-> & M). rewrite app_nil_r in Pm, Ord.
      exists b1, [], data1, free1, T, Panic. rewrite !app_nil_r. split; [reflexivity|].
      split; [exact H1|]. split; [cbn; lia|]. split; [exists buf0; reflexivity|].
      split; [exact Pm|]. split; [exact Ord|]. split; [intros X _; apply Fl; [exact X|discriminate]|].
      exists pre. auto.
    - destruct M as (-> & M). rewrite app_nil_r in Pm, Ord.
      exists b1, [], data1, free1, T, Blocked. rewrite !app_nil_r. split; [reflexivity|].
      split; [exact H1|]. split; [cbn; lia|]. split; [exists buf0; reflexivity|].
      split; [exact Pm|]. split; [exact Ord|]. split; [congruence|]. exists pre. auto.
  Qed.

  (** Flush. *)
  Lemma bw_flush_spec b data free T : wi b data free T ->
    exists b' p data' free' r pre, bw_flush t b = (b', r) /\ wi b' data' free' T /\
      data = p ++ data' /\ accepted (bw_sink b') = accepted (bw_sink b) ++ p /\
      ws_script (bw_sink b) = pre ++ ws_script (bw_sink b') /\
      (flag_ok b -> r <> Blocked -> flag_ok b') /\
      match r with
      | Ret _ => data' = [] /\ exists log1, ws_log (bw_sink b') = log1 ++ [Flushed] /\
                   flat_map event_bytes log1 = accepted (bw_sink b) ++ data
      | Err e => stopped pre e /\ (io_kind_of e = Interrupted -> data' = [])
      | Panic => boomed pre
      | Blocked => ws_script (bw_sink b') = []
      | Fault => False
      end.
  Proof.
    intros H. unfold bw_flush, bw_flush_buf.
    destruct (flush_strong (S (length (ws_script (bw_sink b)))) _ _ _ _ H)
        as (b1 & p & data1 & free1 & r1 & pre & E1 & H1 & Hd & (ds & Hl & Hc) & Hs & _ & Hf & M).
    rewrite E1. pose proof (accepted_flush _ _ _ _ Hl Hc) as Ha. cbn [sbind].
    destruct r1 as [u|e| | |]; try contradiction M.
    - destruct M as [-> Wl]. unfold sink_flush. pose proof H1 as (R & I & A & L & Hh).
      destruct (ws_script (bw_sink b1)) as [|a rest] eqn:Es.
      + exists {| bw_ring := bw_ring b1; bw_sink := bw_sink b1; bw_panicked := bw_panicked b1 |}, p, [], free1, Blocked, pre.
        cbn [bw_sink]. rewrite Es. split; [reflexivity|]. split; [exact H1|]. split; [exact Hd|]. split; [exact Ha|].
        split; [exact Hs|]. split; [congruence|reflexivity].
      + inversion Hh as [|? ? Ha0 Hr0]; subst a l.
        assert (Wi : forall lg, wi {| bw_ring := bw_ring b1; bw_sink := {| ws_log := lg;
                   ws_script := rest; ws_calls := ws_calls (bw_sink b1) |}; bw_panicked := bw_panicked b1 |} [] free1 T).
        { intros lg. exists R. cbn [bw_ring bw_sink ws_script]. auto. }
        assert (Fl : forall lg, flag_ok b -> flag_ok {| bw_ring := bw_ring b1; bw_sink := {| ws_log := lg;
                   ws_script := rest; ws_calls := ws_calls (bw_sink b1) |}; bw_panicked := bw_panicked b1 |}).
        { intros lg X. apply Hf; [exact X|discriminate]. }
        destruct x as [k|k|e|]; cbn [whonest] in Ha0; try contradiction.
        * do 2 eexists. exists [], free1. do 2 eexists. split; [reflexivity|]. split; [apply Wi|]. split; [exact Hd|].
          cbn [bw_sink ws_script ws_log]. split; [unfold accepted in *; cbn [ws_log]; rewrite flat_map_app, Ha; cbn; rewrite app_nil_r; reflexivity|].
          split; [rewrite Hs; change (Take k :: rest) with ([Take k] ++ rest); rewrite app_assoc; reflexivity|].
          split; [intros X _; apply Fl, X|]. split; [reflexivity|]. eexists. split; [reflexivity|].
          fold (accepted (bw_sink b1)). rewrite Ha, Hd, app_nil_r. reflexivity.
        * do 2 eexists. exists [], free1. do 2 eexists. split; [reflexivity|]. split; [apply Wi|]. split; [exact Hd|].
          cbn [bw_sink ws_script ws_log]. rewrite app_nil_r. split; [exact Ha|].
          split; [rewrite Hs; change (WFail e :: rest) with ([WFail e] ++ rest); rewrite app_assoc; reflexivity|].
          split; [intros X _; apply Fl, X|]. split; [|reflexivity]. exists pre, (WFail e). auto.
        * do 2 eexists. exists [], free1. do 2 eexists. split; [reflexivity|]. split; [apply Wi|]. split; [exact Hd|].
          cbn [bw_sink ws_script ws_log]. rewrite app_nil_r. split; [exact Ha|].
          split; [rewrite Hs; change (WBoom :: rest) with ([WBoom] ++ rest); rewrite app_assoc; reflexivity|].
          split; [intros X _; apply Fl, X|]. exists pre. auto.
    - destruct M as (_ & M' & M). exists b1, p, data1, free1, (Err e), pre. do 6 (split; [auto|]). split; [exact M|]. intros X. elim (M' X).
    - destruct M as (_ & M & _). exists b1, p, data1, free1, Panic, pre. auto 10.
    - destruct M as (_ & M); [lia|]. exists b1, p, data1, free1, Blocked, pre. auto 10.
  Qed.

  Definition op_fits (data free : bytes) (o : bwop) : Prop :=
    match o with WWrite buf | WWriteAll buf => exact_fit data free buf | WFlush => False end.

  Lemma bw_step_spec b o data free T : wi b data free T -> room (T + bwop_weight o) ->
    exists b' d data' free' T' r, bw_step t b o = (b', d, r) /\ wi b' data' free' T' /\
      T <= T' <= T + bwop_weight o /\
      Permutation (accepted (bw_sink b) ++ data ++ d) (accepted (bw_sink b') ++ data') /\
      (~ op_fits data free o -> accepted (bw_sink b) ++ data ++ d = accepted (bw_sink b') ++ data') /\
      (flag_ok b -> r <> Blocked -> flag_ok b') /\
      match r with Fault => False | Blocked => ws_script (bw_sink b') = [] | _ => True end.
  Proof.
    intros H Hp. destruct o as [buf|buf|]; cbn [bw_step bwop_weight op_fits] in *.
    - destruct (write_moves _ _ _ _ _ H Hp) as (b1 & data1 & free1 & T1 & r1 & E1 & H1 & Pm & Ord & Fl & pre & Hs & M).
      rewrite E1. exists b1, (told r1 buf), data1, free1, T1, (obind r1 (fun _ => Ret tt)).
      pose proof (zlen_nonneg buf).
      split; [reflexivity|]. split; [exact H1|]. split; [destruct r1; try contradiction M; destruct M; lia|].
      split; [exact Pm|]. split; [exact Ord|].
      split; [intros X Y; apply Fl; [exact X|destruct r1; cbn in Y; congruence]|].
      destruct r1; cbn; auto. destruct M; assumption.
    - unfold bw_write_all.
      destruct (write_all_spec (length buf + length (ws_script (bw_sink b)) + 1) b buf [] data free T H Hp)
        as (b' & more & data' & free' & T' & r & E & H' & HT & (rest & Hr) & Pm & Ord & Fl & pre & Hs & M).
      exists b', more, data', free', T', r. split; [exact E|]. split; [exact H'|].
      split; [rewrite Hr, zlen_app; pose proof (zlen_nonneg rest); lia|]. split; [exact Pm|]. split; [exact Ord|].
      split; [exact Fl|]. destruct r; auto. apply M. lia.
    - destruct (bw_flush_spec _ _ _ _ H) as (b' & p & data' & free' & r & pre & E & H' & Hd & Ha & Hs & Fl & M).
      rewrite E. exists b', [], data', free', T, r. split; [reflexivity|]. split; [exact H'|]. split; [lia|].
      assert (Eq : accepted (bw_sink b) ++ data ++ [] = accepted (bw_sink b') ++ data').
      { rewrite app_nil_r, Ha, Hd, app_assoc. reflexivity. }
      split; [rewrite Eq; apply Permutation_refl|]. split; [intros _; exact Eq|]. split; [exact Fl|].
      destruct r; auto.
  Qed.

  (** No write of the history fills a non-empty buffer exactly. *)
  Fixpoint never_fits (b : bufwriter) (os : list bwop) : Prop :=
    match os with
    | [] => True
    | o :: os' =>
      (forall buf, o = WWrite buf \/ o = WWriteAll buf ->
        match bw_buffer t b with
        | Ret data => data = [] \/ buf = [] \/ zlen data + zlen buf <> ring_write_capacity (bw_ring b)
        | _ => True
        end) /\ never_fits (fst (fst (bw_step t b o))) os'
    end.

  Lemma bw_run_spec os : forall b data free T, wi b data free T -> room (T + bwops_weight os) ->
    exists b' d data' free' T' rs, bw_run t b os = (b', d, rs) /\ wi b' data' free' T' /\
      T <= T' <= T + bwops_weight os /\
      Permutation (accepted (bw_sink b) ++ data ++ d) (accepted (bw_sink b') ++ data') /\
      (never_fits b os -> accepted (bw_sink b) ++ data ++ d = accepted (bw_sink b') ++ data') /\
      (flag_ok b -> ~ In Blocked rs -> flag_ok b') /\
      Forall (fun r => r <> Fault) rs /\
      (In Blocked rs -> ws_script (bw_sink b') = []).
  Proof.
    induction os as [|o os IH]; intros b data free T H Hp.
    - cbn [bw_run]. exists b, [], data, free, T, []. rewrite app_nil_r. split; [reflexivity|]. split; [exact H|].
      split; [cbn; lia|]. split; [apply Permutation_refl|]. split; [reflexivity|]. split; [auto|].
      split; [constructor|]. intros [].
    - assert (Hw0 : forall o, 0 <= bwop_weight o) by (intros []; cbn; try apply zlen_nonneg; lia).
      assert (Hws : forall os, 0 <= bwops_weight os).
      { clear -Hw0. induction os as [|o os IHo]; cbn; [lia|]. specialize (Hw0 o). unfold bwops_weight in IHo. lia. }
      assert (Hsum : bwops_weight (o :: os) = bwop_weight o + bwops_weight os) by reflexivity.
      pose proof (Hw0 o) as Hwo. pose proof (Hws os) as Hwos. rewrite Hsum in *.
      cbn [bw_run].
      destruct (bw_step_spec b o data free T H) as (b1 & d1 & data1 & free1 & T1 & r1 & E1 & H1 & HT1 & Pm1 & Ord1 & Fl1 & M1).
      { eapply room_le; [exact Hp|]. lia. }
      rewrite E1.
      assert (Fit : never_fits b (o :: os) -> ~ op_fits data free o /\ never_fits b1 os).
      { intros [N1 N2]. rewrite E1 in N2. cbn [fst] in N2. split; [|exact N2].
        destruct (wi_ring _ _ _ _ H) as (_ & _ & _ & EB). rewrite EB in N1. pose proof (wi_lens _ _ _ _ H) as HL.
        destruct H as (R & I & A & L & Hh).
        destruct o as [buf|buf|]; cbn [op_fits]; [| |tauto]; intros (X1 & X2 & X3);
          (destruct (N1 buf ltac:(auto)) as [N|[N|N]]; [tauto|tauto|]); unfold ring_write_capacity in N; lia. }
      destruct r1 as [u|e| | |]; try contradiction M1.
      4:{ exists b1, d1, data1, free1, T1, [Blocked]. split; [reflexivity|]. split; [exact H1|]. split; [lia|].
          split; [exact Pm1|]. split; [intros N; apply Ord1, Fit, N|].
          split; [intros _ X; exfalso; apply X; left; reflexivity|].
          split; [repeat constructor; discriminate|]. intros _. exact M1. }
      all: destruct (IH b1 data1 free1 T1 H1) as (b2 & d2 & data2 & free2 & T2 & rs2 & E2 & H2 & HT2 & Pm2 & Ord2 & Fl2 & F2 & K2);
        [eapply room_le; [exact Hp|lia]|];
        rewrite E2; do 6 eexists; (split; [reflexivity|]); (split; [exact H2|]); (split; [lia|]);
        (split; [eapply Permutation_trans; [apply perm_step, Pm1|exact Pm2]|]);
        (split; [intros N; destruct (Fit N) as [N1 N2]; rewrite <- (Ord2 N2); apply eq_step, Ord1, N1|]);
        (split; [intros X Y; apply Fl2; [apply Fl1; [exact X|discriminate]|intros Z; apply Y; right; exact Z]|]);
        (split; [constructor; [discriminate|exact F2]|]);
        intros [X|X]; [discriminate X|exact (K2 X)].
  Qed.

  Lemma bw_new_wi script log calls m : Forall whonest script ->
    wi (bw_from_parts {| ws_log := log; ws_script := script; ws_calls := calls |} (ring_make cap m)) [] (view m 0 cap) 0.
  Proof.
    intros Hh. exists 0. cbn [bw_from_parts bw_ring bw_sink ws_script].
    split; [apply (make_inv t Hbits); lia|]. split; [|split; [reflexivity|exact Hh]].
    unfold absq. cbn [ring_make r_len r_mem]. replace (cap - (0 - 0)) with cap by lia.
    f_equal. apply view_ext. intros i Hi. unfold mirror. rewrite Z.mod_small by lia. reflexivity.
  Qed.
End W.
