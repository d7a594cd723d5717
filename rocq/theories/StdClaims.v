(** Lemmas behind C90. *)
From Coq Require Import Lia.
From Verif Require Import Base ErrorModel RingSpec RingModel RingExactSpec StdModel StdSpec SeqProofs SizeProofs
  RingProofs IRingProofs RingTheorems RingClaims RingExact RingExactClaims.

Lemma through_no_d d l : (exists p, through d l = p ++ [d] /\ ~ In d p) \/ (through d l = l /\ ~ In d l).
Proof.
  induction l as [|b l IH]; cbn [through]; [right; split; [reflexivity|intros []]|].
  destruct (Z.eqb_spec b d) as [->|Hb].
  - left. exists []. split; [reflexivity|intros []].
  - destruct IH as [(p & E & N)|[E N]]; rewrite E.
    + left. exists (b :: p). split; [reflexivity|]. intros [->|H]; [congruence|exact (N H)].
    + right. split; [reflexivity|]. intros [->|H]; [congruence|exact (N H)].
Qed.

Lemma cut_last_snoc d p : cut_last d (p ++ [d]) = p.
Proof. unfold cut_last. rewrite rev_app_distr. cbn. rewrite Z.eqb_refl. apply rev_involutive. Qed.
Lemma cut_last_none d p : ~ In d p -> cut_last d p = p.
Proof.
  intros N. unfold cut_last. destruct (rev p) as [|b r] eqn:E.
  - rewrite <- (rev_involutive p), E. reflexivity.
  - destruct (Z.eqb_spec b d) as [->|]; [|reflexivity]. exfalso. apply N.
    apply in_rev. rewrite E. left. reflexivity.
Qed.

(** ** The reading methods, over any object that shows bytes *)
Section Readers.
  Context {St Op : Type}.
  Variable step : St -> Op -> out io_error (St * rout).
  Variable nm : names Op.
  Variable um : Z.
  Variable Shows : St -> bytes -> Prop.
  Hypothesis Hum : 0 <= um.
  Hypothesis Hread : forall s d n, Shows s d -> 0 <= n <= um ->
    exists s', step s (n_read nm n) = Ret (s', OBytes (ztake n d)) /\ Shows s' (zdrop n d).
  Hypothesis Hpeek : forall s d, Shows s d -> step s (n_peek nm um) = Ret (s, OBytes d).
  Hypothesis Hcons : forall s d n, Shows s d -> 0 <= n -> n <= zlen d ->
    exists s', step s (n_consume nm n) = Ret (s', OUnit) /\ Shows s' (zdrop n d).

  Lemma exact_loop fuel : forall s d n acc, Shows s d -> n <= um -> (Z.to_nat n < fuel)%nat ->
    exists s', std_exact step nm fuel s n acc =
        Ret (s', (acc ++ ztake n d, if n <=? zlen d then None else Some (IoSimple UnexpectedEof))) /\
      Shows s' (zdrop n d).
  Proof.
    induction fuel as [|f IH]; intros s d n acc Hs Hn Hf; [lia|].
    cbn [std_exact]. destruct (Z.leb_spec n 0) as [H0|H0].
    - exists s. rewrite ztake_neg, zdrop_neg, app_nil_r by lia. pose proof (zlen_nonneg d).
      destruct (Z.leb_spec n (zlen d)); [|lia]. split; [reflexivity|exact Hs].
    - destruct (Hread s d n Hs) as (s1 & E & H1); [lia|]. rewrite E. cbn [obind fst snd bytes_of].
      pose proof (zlen_nonneg d). rewrite zlen_ztake by lia.
      destruct (Z.eqb_spec (Z.min n (zlen d)) 0) as [Hz|Hz].
      + exists s1. assert (d = []) by (apply zlen_0; lia). subst d.
        destruct (Z.leb_spec n (zlen (@nil byte))) as [Hx|_]; [rewrite zlen_nil in Hx; lia|].
        unfold ztake at 1. rewrite firstn_nil, app_nil_r. split; [reflexivity|exact H1].
      + destruct (IH s1 (zdrop n d) (n - Z.min n (zlen d)) (acc ++ ztake n d) H1) as (s2 & E2 & H2); [lia|lia|].
        rewrite E2. exists s2. rewrite zlen_zdrop by lia.
        destruct (Z.leb_spec n (zlen d)) as [Hle|Hgt].
        * replace (n - Z.min n (zlen d)) with 0 in * by lia.
          rewrite (ztake_neg 0), (zdrop_neg 0) in * by lia. rewrite app_nil_r.
          destruct (Z.leb_spec 0 (Z.max 0 (zlen d - n))); [|lia]. split; [reflexivity|exact H2].
        * rewrite (zdrop_all n d) in * by lia.
          destruct (Z.leb_spec (n - Z.min n (zlen d)) (Z.max 0 (zlen d - n))); [lia|].
          unfold ztake at 2. rewrite firstn_nil, app_nil_r.
          unfold zdrop in H2. rewrite skipn_nil in H2. split; [reflexivity|exact H2].
  Qed.

  Lemma read_exact_ok s d n : Shows s d -> 0 <= n <= um ->
    exists s', std_read_exact step nm s n =
        Ret (s', (ztake n d, if n <=? zlen d then None else Some (IoSimple UnexpectedEof))) /\
      Shows s' (zdrop n d).
  Proof. intros Hs Hn. apply (exact_loop _ s d n [] Hs); lia. Qed.

  Lemma to_end_ok fuel : forall sizes s d acc, Shows s d -> (forall i, 0 < sizes i <= um) ->
    (length d < fuel)%nat ->
    exists s', std_read_to_end step nm fuel sizes s acc = Ret (s', acc ++ d) /\ Shows s' [].
  Proof.
    induction fuel as [|f IH]; intros sizes s d acc Hs Hz Hf; [lia|].
    cbn [std_read_to_end]. pose proof (Hz f) as Hk. set (k := sizes f) in *.
    destruct (Hread s d k Hs) as (s1 & E & H1); [lia|]. rewrite E. cbn [obind fst snd bytes_of].
    rewrite zlen_ztake by lia. pose proof (zlen_nonneg d).
    destruct (Z.eqb_spec (Z.min k (zlen d)) 0) as [H0|H0].
    - assert (d = []) by (apply zlen_0; lia). subst d. exists s1.
      unfold zdrop in H1. rewrite skipn_nil in H1. rewrite app_nil_r. split; [reflexivity|exact H1].
    - destruct (IH sizes s1 (zdrop k d) (acc ++ ztake k d) H1 Hz) as (s2 & E2 & H2).
      { assert (zlen (zdrop k d) < zlen d) by (rewrite zlen_zdrop; lia). unfold zlen in *. lia. }
      exists s2. rewrite E2, <- app_assoc, ztake_zdrop. split; [reflexivity|exact H2].
  Qed.

  Lemma until_loop_ok f s d c acc : Shows s d ->
    exists s', std_until_loop step nm um (S (S f)) s c acc = Ret (s', acc ++ through c d) /\
      Shows s' (zdrop (zlen (through c d)) d).
  Proof.
    intros Hs. cbn [std_until_loop]. rewrite (Hpeek s d Hs). cbn [obind fst snd bytes_of].
    pose proof (zlen_nonneg d).
    destruct (find_byte c d) as [k|] eqn:Hf.
    - destruct (find_byte_some _ _ _ Hf) as [Hk Hb]. rewrite Hb.
      destruct (Hcons s d (k + 1) Hs) as (s' & E & H'); [lia|lia|].
      rewrite E. cbn [obind fst]. exists s'. split; [reflexivity|].
      rewrite zlen_ztake by lia. replace (Z.min (k + 1) (zlen d)) with (k + 1) by lia. exact H'.
    - pose proof (find_byte_none _ _ Hf) as Hb. rewrite Hb.
      destruct (Hcons s d (zlen d) Hs) as (s' & E & H'); [lia|lia|].
      rewrite E. cbn [obind fst]. destruct (Z.eqb_spec (zlen d) 0) as [Hz|Hz].
      + exists s'. assert (d = []) by (apply zlen_0; lia). subst d. rewrite app_nil_r. split; [reflexivity|exact H'].
      + rewrite (Hpeek s' _ H'). cbn [obind fst snd bytes_of]. rewrite zdrop_all by lia.
        cbn [find_byte]. rewrite zlen_nil.
        rewrite zdrop_all in H' by lia.
        destruct (Hcons s' [] 0 H') as (s2 & E2 & H2); [lia|cbn; lia|].
        rewrite E2. cbn [obind fst Z.eqb]. exists s2. split; [reflexivity|exact H2].
  Qed.

  Lemma until_ok s d c : Shows s d ->
    exists s', std_read_until step nm um s c = Ret (s', through c d) /\ Shows s' (zdrop (zlen (through c d)) d).
  Proof. intros Hs. destruct (until_loop_ok 1 s d c [] Hs) as (s' & E & H). exists s'. split; [exact E|exact H]. Qed.

  Lemma line_ok valid s d : Shows s d ->
    exists s', std_read_line step nm um valid s =
        Ret (s', if valid (through 10 d) then (through 10 d, None) else ([], Some InvalidData)) /\
      Shows s' (zdrop (zlen (through 10 d)) d).
  Proof.
    intros Hs. destruct (until_ok s d 10 Hs) as (s' & E & H). exists s'. unfold std_read_line.
    rewrite E. cbn [obind fst snd]. split; [reflexivity|exact H].
  Qed.

  Lemma split_ok fuel : forall s d c acc, Shows s d -> (length d < fuel)%nat ->
    exists s' ps, std_split step nm um fuel s c acc = Ret (s', acc ++ ps) /\ pieces c d ps /\ Shows s' [].
  Proof.
    induction fuel as [|f IH]; intros s d c acc Hs Hf; [lia|].
    cbn [std_split]. destruct (until_ok s d c Hs) as (s1 & E & H1). rewrite E. cbn [obind fst snd].
    pose proof (through_prefix c d) as HP.
    destruct (through_no_d c d) as [(p & T & N)|[T N]].
    - assert (L : zlen (through c d) = zlen p + 1) by (rewrite T, zlen_app; reflexivity).
      destruct (IH s1 (zdrop (zlen (through c d)) d) c (acc ++ [p]) H1) as (s' & ps & E2 & [F P] & H2).
      { assert (X : zlen d = zlen p + 1 + zlen (zdrop (zlen (through c d)) d)) by (rewrite <- L, <- zlen_app, HP; reflexivity).
        pose proof (zlen_nonneg p). unfold zlen in X at 1. unfold zlen in X at 2. unfold zlen in *. lia. }
      exists s', (p :: ps). rewrite T in *. split; [|split; [|exact H2]].
      + destruct (p ++ [c]) eqn:X; [destruct p; discriminate X|]. 
        rewrite <- X, cut_last_snoc. etransitivity; [exact E2|]. rewrite <- app_assoc. reflexivity.
      + split; [constructor; [exact N|exact F]|]. destruct P as [P|(ps' & z & -> & Hz & P)].
        * left. cbn [flat_map]. rewrite <- P. symmetry. exact HP.
        * right. exists (p :: ps'), z. split; [reflexivity|]. split; [exact Hz|].
          cbn [flat_map]. rewrite <- app_assoc, <- P. symmetry. exact HP.
    - rewrite T in *. destruct d as [|b d].
      + exists s1, []. rewrite app_nil_r. split; [reflexivity|]. split; [|exact H1].
        split; [constructor|left; reflexivity].
      + assert (Hd : zdrop (zlen (b :: d)) (b :: d) = []) by (apply zdrop_all; lia).
        rewrite Hd in H1. destruct f as [|f]; [cbn in Hf; lia|].
        destruct (IH s1 [] c (acc ++ [cut_last c (b :: d)]) H1) as (s' & ps & E2 & [F P] & H2); [cbn; lia|].
        exists s', (cut_last c (b :: d) :: ps). rewrite E2, <- app_assoc. split; [reflexivity|]. split; [|exact H2].
        rewrite (cut_last_none c (b :: d) N).
        assert (ps = []) as ->.
        { destruct ps as [|x ps]; [reflexivity|]. destruct P as [P|(ps' & z & E3 & Hz & P)].
          - cbn [flat_map] in P. destruct x; discriminate P.
          - destruct ps' as [|y ps']; cbn [flat_map app] in P; [congruence|destruct y; discriminate P]. }
        split; [constructor; [exact N|constructor]|]. right. exists [], (b :: d). split; [reflexivity|].
        split; [discriminate|reflexivity].
  Qed.
End Readers.

(** ** Ring *)
Definition ring_in_use (t : target) (cap : Z) (r : ring) : Prop :=
  exists os, ring_reached t cap os r \/ ring_live t cap os r.
(** ... with room in the stream position for [n] more bytes. *)
Definition ring_with_room (t : target) (cap n : Z) (r : ring) : Prop :=
  exists os, (ring_reached t cap os r /\ room t cap os n) \/ (ring_live t cap os r /\ ~ overflows t (r_wpos r) n).
Definition iring_in_use (t : target) (cap : Z) (r : iring) : Prop :=
  exists os, iring_reached t cap os r \/ iring_live t cap os r.
Definition iring_with_room (t : target) (cap n : Z) (r : iring) : Prop :=
  exists os, (iring_reached t cap os r /\ iroom t cap os n) \/ (iring_live t cap os r /\ ~ overflows t (i_wpos r) n).

Section Ring.
  Variable t : target.
  Hypothesis Hg : good_target t.
  Let Hb : 32 <= t_bits t <= 64 := good_bits t Hg.
  Variable cap : Z.

  Definition rshows (r : ring) (d : bytes) : Prop :=
    exists T R, inv t r T R /\ r_len r = cap /\ q_data (absq r T R) = d.

  Lemma in_use_inv r : ring_in_use t cap r -> exists T R, inv t r T R /\ r_len r = cap.
  Proof.
    intros [os [H|H]].
    - destruct (reached_inv t Hg cap os r H) as (T & R & I & L & _). eauto.
    - destruct (live_inv t Hg cap os r H) as (T & R & I & L). eauto.
  Qed.
  Lemma with_room_inv n r : ring_with_room t cap n r -> exists T R, inv t r T R /\ r_len r = cap /\ pos_ok t cap (T + n).
  Proof.
    intros [os [[H K]|[H K]]].
    - destruct (reached_inv t Hg cap os r H) as (T & R & I & L & B). exists T, R. split; [exact I|]. split; [exact L|].
      eapply pos_ok_mono; [exact K|lia].
    - destruct (live_inv t Hg cap os r H) as (T & R & I & L). exists T, R. split; [exact I|]. split; [exact L|].
      destruct H as (_ & _ & X & _). apply (exact_pos t cap (T + n) X).
      destruct (t_checks t) eqn:C; [|right; reflexivity]. left.
      rewrite (checked_wpos t Hg r T R I C) in K. apply Z.lt_nge. intros Q. apply K. split; [exact C|exact Q].
  Qed.

  Lemma rshows_slice r d : rshows r d -> ring_read_slice t r (umax t) = Ret d /\
    ring_write_len t r = Ret (cap - zlen d) /\ 0 <= zlen d <= cap.
  Proof.
    intros (T & R & I & L & D). pose proof (absq_data_len t Hb r T R I) as HL. rewrite D in HL.
    pose proof (umax_big t Hb r T R I). pose proof (is_usize_umax t Hb) as [U _].
    rewrite (read_slice_eq t Hb r T R I) by exact U. rewrite D, ztake_all by lia.
    rewrite (write_len_eq t Hb r T R I), L, HL. split; [reflexivity|]. split; [reflexivity|].
    destruct I. lia.
  Qed.

  Lemma rs_read r d n : rshows r d -> 0 <= n <= umax t ->
    exists r', ring_step t r (n_read ring_names n) = Ret (r', OBytes (ztake n d)) /\ rshows r' (zdrop n d).
  Proof.
    intros (T & R & I & L & D) Hn. destruct (read_eq t Hb r T R n I) as (r' & E & I' & A & L'); [lia|].
    cbn [ring_names n_read ring_step]. rewrite E. cbn [obind fst snd]. rewrite D.
    exists r'. split; [reflexivity|]. eexists _, _. split; [exact I'|]. split; [lia|]. rewrite A. unfold q_remove. cbn [q_data]. rewrite D. reflexivity.
  Qed.
  Lemma rs_peek r d : rshows r d -> ring_step t r (n_peek ring_names (umax t)) = Ret (r, OBytes d).
  Proof. intros H. cbn [ring_names n_peek ring_step]. rewrite (proj1 (rshows_slice r d H)). reflexivity. Qed.
  Lemma rs_cons r d n : rshows r d -> 0 <= n -> n <= zlen d ->
    exists r', ring_step t r (n_consume ring_names n) = Ret (r', OUnit) /\ rshows r' (zdrop n d).
  Proof.
    intros (T & R & I & L & D) Hn _. destruct (consume_eq t Hb r T R I n) as (r' & E & I' & A & L'); [lia|].
    cbn [ring_names n_consume ring_step]. rewrite E. cbn [obind].
    exists r'. split; [reflexivity|]. eexists _, _. split; [exact I'|]. split; [lia|]. rewrite A. unfold q_remove. cbn [q_data]. rewrite D. reflexivity.
  Qed.

  (** What is left in a ring. *)
  Definition ring_left (r : ring) (d : bytes) : Prop :=
    ring_read_slice t r (umax t) = Ret d /\ ring_write_len t r = Ret (cap - zlen d).
  Lemma shows_left r d : rshows r d -> ring_left r d.
  Proof. intros H. destruct (rshows_slice r d H) as (A & B & _). split; assumption. Qed.
  Let Hum : 0 <= umax t. Proof. destruct (is_usize_umax t Hb); assumption. Qed.

  Lemma first_len_find lens : Forall (is_usize t) lens ->
    first_len lens = match find (fun n => 0 <? n) lens with Some n => n | None => 0 end /\
    is_usize t (match find (fun n => 0 <? n) lens with Some n => n | None => 0 end).
  Proof.
    induction 1 as [|n l [Hn0 Hn] Hl IH]; [split; [reflexivity|pose proof (word_pos t Hb); unfold is_usize; cbn [find]; lia]|].
    unfold first_len in *. cbn [filter find]. destruct (Z.eqb_spec n 0) as [->|Hz]; cbn [negb].
    - exact IH.
    - destruct (Z.ltb_spec 0 n); [|lia]. split; [reflexivity|split; assumption].
  Qed.

  Lemma ring_readers r : ring_in_use t cap r ->
    exists data, ring_left r data /\ zlen data <= cap /\
    (forall n, is_usize t n -> exists r',
       std_read_exact (ring_step t) ring_names r n =
         Ret (r', (ztake n data, if n <=? zlen data then None else Some (IoSimple UnexpectedEof))) /\
       ring_left r' (zdrop n data)) /\
    (forall fuel sizes, (forall i, 0 < sizes i <= umax t) -> (length data < fuel)%nat -> exists r',
       std_read_to_end (ring_step t) ring_names fuel sizes r [] = Ret (r', data) /\ ring_left r' []) /\
    (forall d, exists r', std_read_until (ring_step t) ring_names (umax t) r d = Ret (r', through d data) /\
       ring_left r' (zdrop (zlen (through d data)) data)) /\
    (forall valid, exists r', std_read_line (ring_step t) ring_names (umax t) valid r =
         Ret (r', if valid (through 10 data) then (through 10 data, None) else ([], Some InvalidData)) /\
       ring_left r' (zdrop (zlen (through 10 data)) data)) /\
    (forall fuel d, (length data < fuel)%nat -> exists r' ps,
       std_split (ring_step t) ring_names (umax t) fuel r d [] = Ret (r', ps) /\ pieces d data ps /\ ring_left r' []) /\
    (forall lens, Forall (is_usize t) lens -> exists r',
       let n := match find (fun n => 0 <? n) lens with Some n => n | None => 0 end in
       std_read_vectored (ring_step t) ring_names r lens = Ret (r', OBytes (ztake n data)) /\
       ring_left r' (zdrop n data)) /\
    (forall n, is_usize t n ->
       (zlen data < n -> ring_copy_to_slice t r n = Panic) /\
       (n <= zlen data -> exists r', ring_copy_to_slice t r n = Ret (r', ztake n data) /\ ring_left r' (zdrop n data))).
  Proof.
    intros H. destruct (in_use_inv r H) as (T & R & I & L).
    set (data := q_data (absq r T R)). assert (Hs : rshows r data) by (exists T, R; auto).
    exists data. split; [apply shows_left; exact Hs|]. split; [destruct (rshows_slice r data Hs) as (_ & _ & ?); lia|].
    split; [|split; [|split; [|split; [|split; [|split]]]]].
    - intros n Hn. destruct (read_exact_ok (ring_step t) ring_names (umax t) rshows rs_read r data n Hs) as (r' & E & H').
      + destruct Hn. unfold umax. lia.
      + exists r'. split; [exact E|apply shows_left; exact H'].
    - intros fuel sizes Hz Hf.
      destruct (to_end_ok (ring_step t) ring_names (umax t) rshows rs_read fuel sizes r data [] Hs Hz Hf) as (r' & E & H').
      exists r'. split; [exact E|apply shows_left; exact H'].
    - intros d. destruct (until_ok (ring_step t) ring_names (umax t) rshows rs_peek rs_cons r data d Hs) as (r' & E & H').
      exists r'. split; [exact E|apply shows_left; exact H'].
    - intros valid. destruct (line_ok (ring_step t) ring_names (umax t) rshows rs_peek rs_cons valid r data Hs) as (r' & E & H').
      exists r'. split; [exact E|apply shows_left; exact H'].
    - intros fuel d Hf.
      destruct (split_ok (ring_step t) ring_names (umax t) rshows rs_peek rs_cons fuel r data d [] Hs Hf) as (r' & ps & E & P & H').
      exists r', ps. split; [exact E|]. split; [exact P|apply shows_left; exact H'].
    - intros lens Hl. unfold std_read_vectored. destruct (first_len_find lens Hl) as [-> Hn].
      set (n := match find _ lens with Some n => n | None => 0 end) in *.
      destruct (rs_read r data n Hs) as (r' & E & H'); [destruct Hn; unfold umax; lia|].
      exists r'. split; [exact E|apply shows_left; exact H'].
    - intros n [Hn0 Hn]. destruct (rshows_slice r data Hs) as (E & _ & _).
      assert (HL : zlen data = T - R) by (apply (absq_data_len t Hb r T R I)).
      unfold ring_copy_to_slice, ring_remaining. rewrite (read_len_eq t Hb r T R I), <- HL. cbn [obind].
      split; intros Hc; destruct (Z.ltb_spec (zlen data) n); try lia; [reflexivity|].
      destruct (Z.to_nat n) as [|k] eqn:Ek; cbn [ring_copy_loop].
      + assert (n = 0) as -> by lia. cbn [Z.leb Z.compare]. exists r. split; [rewrite ztake_neg by lia; reflexivity|].
        rewrite zdrop_neg by lia. apply shows_left. exact Hs.
      + destruct (Z.leb_spec n 0); [lia|]. unfold ring_chunk. rewrite E. cbn [obind].
        replace (Z.min (zlen data) n) with n by lia.
        destruct (rs_cons r data n Hs) as (r' & E' & H'); [lia|lia|].
        cbn [ring_names n_consume ring_step] in E'. unfold ring_advance.
        destruct (ring_consume t r n); cbn [obind] in E'; try discriminate E'. injection E' as ->.
        cbn [obind]. rewrite Z.sub_diag. exists r'. split; [|apply shows_left; exact H'].
        destruct k; reflexivity.
  Qed.

  (** Appending what fits, fragment by fragment. *)
  Lemma fmt_ok frags : forall r T R, inv t r T R -> r_len r = cap ->
    let free := cap - (T - R) in
    pos_ok t cap (T + Z.min (zlen (concat frags)) free) ->
    exists r', std_write_fmt (ring_step t) ring_names r frags =
        Ret (r', if zlen (concat frags) <=? free then None else Some (IoSimple WriteZero)) /\
      rshows r' (q_data (absq r T R) ++ ztake free (concat frags)).
  Proof.
    induction frags as [|b frags IH]; intros r T R I L free Hp.
    - cbn [std_write_fmt concat] in *. exists r. unfold free in *. pose proof (inv_T _ _ _ _ I).
      rewrite zlen_nil. destruct (Z.leb_spec 0 (cap - (T - R))); [|lia].
      split; [reflexivity|]. unfold ztake. rewrite firstn_nil, app_nil_r. exists T, R. auto.
    - cbn [std_write_fmt concat] in *. pose proof (zlen_nonneg b). pose proof (zlen_nonneg (concat frags)).
      rewrite zlen_app in *. pose proof (inv_T _ _ _ _ I). pose proof (inv_RT _ _ _ _ I).
      destruct (write_all_eq t Hb r T R b I) as (r1 & E & I1 & A & L1).
      { eapply pos_ok_mono; [rewrite L; exact Hp|]. unfold free. lia. }
      cbn [ring_names n_write_all ring_step]. rewrite E. cbn [obind fst snd]. rewrite L in *. fold free in I1, A |- *.
      assert (Hdl : zlen (q_data (absq r1 (T + Z.min (zlen b) free) R)) = T + Z.min (zlen b) free - R)
        by (apply (absq_data_len t Hb), I1).
      destruct (Z.leb_spec (zlen b) free) as [Hle|Hgt]; cbn [obind fst snd].
      + replace (Z.min (zlen b) free) with (zlen b) in * by lia. rewrite ztake_all in A by lia.
        destruct (IH r1 (T + zlen b) R I1 L1) as (r2 & E2 & S2).
        { eapply pos_ok_mono; [exact Hp|]. unfold free. lia. }
        cbn [fst snd]. rewrite E2. exists r2. replace (cap - (T + zlen b - R)) with (free - zlen b) in * by (unfold free; lia).
        split.
        * f_equal. f_equal. destruct (Z.leb_spec (zlen (concat frags)) (free - zlen b)), (Z.leb_spec (zlen b + zlen (concat frags)) free); try lia; reflexivity.
        * rewrite A in S2. unfold q_append in S2. cbn [q_data] in S2.
          rewrite ztake_app_r by lia. rewrite app_assoc. exact S2.
      + cbn [fst snd]. exists r1. destruct (Z.leb_spec (zlen b + zlen (concat frags)) free); [lia|].
        split; [reflexivity|]. replace (Z.min (zlen b) free) with free in * by lia.
        exists (T + free), R. split; [exact I1|]. split; [exact L1|]. rewrite A. unfold q_append. cbn [q_data].
        f_equal. symmetry. apply ztake_app_l. lia.
  Qed.

  Lemma first_buf_find bufs :
    first_buf bufs = match find (fun b => 0 <? zlen b) bufs with Some b => b | None => [] end.
  Proof.
    induction bufs as [|b l IH]; [reflexivity|]. unfold first_buf in *. cbn [filter find].
    pose proof (zlen_nonneg b). destruct (Z.eqb_spec (zlen b) 0), (Z.ltb_spec 0 (zlen b)); try lia; cbn [negb];
      [exact IH|reflexivity].
  Qed.

  Lemma ring_writers n r : ring_with_room t cap n r ->
    exists data, ring_left r data /\ let free := cap - zlen data in
    (forall frags, Z.min (zlen (concat frags)) free <= n -> exists r',
       std_write_fmt (ring_step t) ring_names r frags =
         Ret (r', if zlen (concat frags) <=? free then None else Some (IoSimple WriteZero)) /\
       ring_left r' (data ++ ztake free (concat frags))) /\
    (forall bufs, let b := match find (fun b => 0 <? zlen b) bufs with Some b => b | None => [] end in
       Z.min (zlen b) free <= n -> exists r',
       std_write_vectored (ring_step t) ring_names r bufs = Ret (r', OCount (Z.min (zlen b) free)) /\
       ring_left r' (data ++ ztake free b)).
  Proof.
    intros H. destruct (with_room_inv n r H) as (T & R & I & L & P).
    exists (q_data (absq r T R)). split; [apply shows_left; exists T, R; auto|].
    cbv zeta. rewrite (absq_data_len t Hb r T R I). split.
    - intros frags Hn. destruct (fmt_ok frags r T R I L) as (r' & E & S1).
      { eapply pos_ok_mono; [exact P|]. lia. }
      exists r'. split; [exact E|apply shows_left; exact S1].
    - intros bufs. set (b := match find _ bufs with Some b => b | None => [] end). intros Hn.
      unfold std_write_vectored. replace (first_buf bufs) with b by (symmetry; apply first_buf_find).
      destruct (write_eq t Hb r T R b I) as (r' & E & I' & A & L').
      { rewrite L. eapply pos_ok_mono; [exact P|]. lia. }
      rewrite L in *. cbn [ring_names n_write ring_step]. rewrite E. cbn [obind fst snd].
      exists r'. split; [reflexivity|]. apply shows_left. eexists _, _. split; [exact I'|]. split; [exact L'|].
      rewrite A. unfold q_append. cbn [q_data]. f_equal.
      destruct (Z.le_gt_cases (zlen b) (cap - (T - R))).
      + rewrite !ztake_all by lia. reflexivity.
      + f_equal. lia.
  Qed.

  (** Programs that decide each call by the answers before. *)
  Lemma client_serves {A} (c : client rop A) : forall r T R, inv t r T R -> r_len r = cap -> exact_positions t cap ->
    asks (rop_ok t) c ->
    exists res, serves (t_checks t) T (absq r T R) c res /\
      match res with
      | Some (q, x) => exists r' T' R', client_run (ring_step t) r c = Ret (r', x) /\ inv t r' T' R' /\
                         absq r' T' R' = q /\ r_len r' = cap
      | None => client_run (ring_step t) r c = Panic
      end.
  Proof.
    induction c as [x|o k IH]; intros r T R I L X Ha; cbn [asks client_run] in *.
    - exists (Some (absq r T R, x)). split; [constructor|]. exists r, T, R. auto.
    - destruct Ha as [Ho Hk]. rewrite <- L in X.
      destruct (step_exact t Hg r T R o I Ho X) as [[Hp E]|(Hn & r' & x & R' & E & I' & S1 & L')].
      + exists None. split; [apply serve_panic; exact Hp|]. rewrite E. reflexivity.
      + rewrite L in X. destruct (IH x r' _ R' I' ltac:(congruence) X (Hk x)) as (res & Q & M).
        exists res. split; [eapply serve_call; eassumption|]. rewrite E. cbn [obind fst snd].
        destruct res as [[q y]|]; exact M.
  Qed.

  Lemma ring_clients {A} m (c : client rop A) : 0 < cap -> 2 * cap < 2 ^ t_bits t -> exact_positions t cap ->
    asks (rop_ok t) c ->
    exists res, serves (t_checks t) 0 {| q_data := []; q_free := view m 0 cap |} c res /\
      match res with
      | Some (q, x) => exists r, client_run (ring_step t) (ring_make cap m) c = Ret (r, x) /\ ring_shows t cap r q
      | None => client_run (ring_step t) (ring_make cap m) c = Panic
      end.
  Proof.
    intros Hc Hw X Ha. pose proof (make_inv t Hb cap m Hc ltac:(lia)) as I.
    destruct (client_serves c (ring_make cap m) 0 0 I eq_refl X Ha) as (res & Q & M).
    replace (absq (ring_make cap m) 0 0) with {| q_data := []; q_free := view m 0 cap |} in Q.
    2:{ unfold absq. cbn [ring_make r_len r_mem].
        replace (cap - (0 - 0)) with cap by lia. rewrite mirror_id by lia. reflexivity. }
    exists res. split; [exact Q|]. destruct res as [[q x]|]; [|exact M].
    destruct M as (r' & T' & R' & E & I' & A' & L). exists r'. split; [exact E|].
    rewrite <- A', <- L. apply (inv_shows t Hg), I'.
  Qed.
End Ring.

(** ** InfiniteRing *)
Section Infinite.
  Variable t : target.
  Hypothesis Hg : good_target t.
  Let Hb : 32 <= t_bits t <= 64 := good_bits t Hg.
  Variable cap : Z.

  Definition ishows (r : iring) (d : bytes) : Prop :=
    exists T, iinv t r T /\ i_len r = cap /\ lq_data (abst r T) = d.
  Definition iring_left (r : iring) (d : bytes) : Prop :=
    iring_read_slice t r (umax t) = Ret d /\ iring_read_len t r = zlen d.

  Lemma iin_use_inv r : iring_in_use t cap r -> exists T, iinv t r T /\ i_len r = cap.
  Proof.
    intros [os [H|H]].
    - destruct (ireached_inv t Hg cap os r H) as (T & I & L & _). eauto.
    - destruct (ilive_inv t Hg cap os r H) as (T & I & L). eauto.
  Qed.
  Lemma iwith_room_inv n r : iring_with_room t cap n r -> exists T, iinv t r T /\ i_len r = cap /\ pos_ok t cap (T + n).
  Proof.
    intros [os [[H K]|[H K]]].
    - destruct (ireached_inv t Hg cap os r H) as (T & I & L & B). exists T. split; [exact I|]. split; [exact L|].
      eapply pos_ok_mono; [exact K|lia].
    - destruct (ilive_inv t Hg cap os r H) as (T & I & L). exists T. split; [exact I|]. split; [exact L|].
      destruct H as (_ & _ & X & _). apply (exact_pos t cap (T + n) X).
      destruct (t_checks t) eqn:C; [|right; reflexivity]. left.
      assert (W : i_wpos r = T).
      { pose proof (ii_ok _ _ _ I) as [[HT|HT] _]; [|congruence]. destruct I. rewrite ii_wpos. apply Z.mod_small. lia. }
      rewrite W in K. apply Z.lt_nge. intros Q. apply K. split; [exact C|exact Q].
  Qed.

  Lemma i_bounds r T : iinv t r T -> 0 <= lq_len (abst r T) <= zlen (lq_tape (abst r T)).
  Proof. intros I. rewrite (abst_tape_len t Hb r T I). cbn [abst lq_len]. destruct I. lia. Qed.

  Lemma ishows_left r d : ishows r d -> iring_left r d /\ zlen d <= cap.
  Proof.
    intros (T & I & L & D). pose proof (iinv_shows t Hg r T I) as (_ & _ & A & B & C & E & _).
    unfold iring_left. rewrite D in *. rewrite L in *. rewrite E by (apply is_usize_umax; exact Hb).
    pose proof (lq_data_len (abst r T) (i_bounds r T I)) as HD. rewrite D in HD.
    assert (zlen d <= cap) by lia. split; [|assumption]. split; [|exact C].
    f_equal. apply ztake_all. pose proof (ii_word _ _ _ I). unfold umax. lia.
  Qed.
  Lemma is_read r d n : ishows r d -> 0 <= n <= umax t ->
    exists r', iring_step t r (n_read iring_names n) = Ret (r', OBytes (ztake n d)) /\ ishows r' (zdrop n d).
  Proof.
    intros (T & I & L & D) Hn. destruct (i_read_eq t Hb r T n I) as (r' & E & I' & A & L'); [lia|].
    cbn [iring_names n_read iring_step]. rewrite E. cbn [obind fst snd]. rewrite D.
    exists r'. split; [reflexivity|]. exists T. split; [exact I'|]. split; [lia|].
    rewrite A, lq_data_drop, D by (try apply i_bounds; auto; lia). reflexivity.
  Qed.
  Lemma is_peek r d : ishows r d -> iring_step t r (n_peek iring_names (umax t)) = Ret (r, OBytes d).
  Proof. intros H. cbn [iring_names n_peek iring_step]. rewrite (proj1 (proj1 (ishows_left r d H))). reflexivity. Qed.
  Lemma is_cons r d n : ishows r d -> 0 <= n -> n <= zlen d ->
    exists r', iring_step t r (n_consume iring_names n) = Ret (r', OUnit) /\ ishows r' (zdrop n d).
  Proof.
    intros (T & I & L & D) Hn _. destruct (i_consume_eq t Hb r T I n) as (r' & E & I' & A & L'); [lia|].
    cbn [iring_names n_consume iring_step]. rewrite E. cbn [obind].
    exists r'. split; [reflexivity|]. exists T. split; [exact I'|]. split; [lia|].
    rewrite A, lq_data_drop, D by (try apply i_bounds; auto; lia). reflexivity.
  Qed.

  Lemma iring_readers r : iring_in_use t cap r ->
    exists data, iring_left r data /\ zlen data <= cap /\
    (forall n, is_usize t n -> exists r',
       std_read_exact (iring_step t) iring_names r n =
         Ret (r', (ztake n data, if n <=? zlen data then None else Some (IoSimple UnexpectedEof))) /\
       iring_left r' (zdrop n data)) /\
    (forall fuel sizes, (forall i, 0 < sizes i <= umax t) -> (length data < fuel)%nat -> exists r',
       std_read_to_end (iring_step t) iring_names fuel sizes r [] = Ret (r', data) /\ iring_left r' []) /\
    (forall d, exists r', std_read_until (iring_step t) iring_names (umax t) r d = Ret (r', through d data) /\
       iring_left r' (zdrop (zlen (through d data)) data)) /\
    (forall valid, exists r', std_read_line (iring_step t) iring_names (umax t) valid r =
         Ret (r', if valid (through 10 data) then (through 10 data, None) else ([], Some InvalidData)) /\
       iring_left r' (zdrop (zlen (through 10 data)) data)) /\
    (forall fuel d, (length data < fuel)%nat -> exists r' ps,
       std_split (iring_step t) iring_names (umax t) fuel r d [] = Ret (r', ps) /\ pieces d data ps /\ iring_left r' []) /\
    (forall lens, Forall (is_usize t) lens -> exists r',
       let n := match find (fun n => 0 <? n) lens with Some n => n | None => 0 end in
       std_read_vectored (iring_step t) iring_names r lens = Ret (r', OBytes (ztake n data)) /\
       iring_left r' (zdrop n data)).
  Proof.
    intros H. destruct (iin_use_inv r H) as (T & I & L).
    set (data := lq_data (abst r T)). assert (Hs : ishows r data) by (exists T; auto).
    exists data. destruct (ishows_left r data Hs) as [HL HC]. split; [exact HL|]. split; [exact HC|].
    split; [|split; [|split; [|split; [|split]]]].
    - intros n Hn. destruct (read_exact_ok (iring_step t) iring_names (umax t) ishows is_read r data n Hs) as (r' & E & H').
      + destruct Hn. unfold umax. lia.
      + exists r'. split; [exact E|apply ishows_left; exact H'].
    - intros fuel sizes Hz Hf.
      destruct (to_end_ok (iring_step t) iring_names (umax t) ishows is_read fuel sizes r data [] Hs Hz Hf) as (r' & E & H').
      exists r'. split; [exact E|apply ishows_left; exact H'].
    - intros d. destruct (until_ok (iring_step t) iring_names (umax t) ishows is_peek is_cons r data d Hs) as (r' & E & H').
      exists r'. split; [exact E|apply ishows_left; exact H'].
    - intros valid. destruct (line_ok (iring_step t) iring_names (umax t) ishows is_peek is_cons valid r data Hs) as (r' & E & H').
      exists r'. split; [exact E|apply ishows_left; exact H'].
    - intros fuel d Hf.
      destruct (split_ok (iring_step t) iring_names (umax t) ishows is_peek is_cons fuel r data d [] Hs Hf) as (r' & ps & E & P & H').
      exists r', ps. split; [exact E|]. split; [exact P|apply ishows_left; exact H'].
    - intros lens Hl. unfold std_read_vectored. destruct (first_len_find t Hg lens Hl) as [-> Hn].
      set (n := match find _ lens with Some n => n | None => 0 end) in *.
      destruct (is_read r data n Hs) as (r' & E & H'); [destruct Hn; unfold umax; lia|].
      exists r'. split; [exact E|apply ishows_left; exact H'].
  Qed.

  Lemma lastn_step c (a b x : bytes) : 0 <= c -> lastn c (lastn c (a ++ b) ++ x) = lastn c (a ++ b ++ x).
  Proof.
    intros Hc. rewrite app_assoc. set (l := a ++ b). clearbody l. pose proof (zlen_nonneg x).
    destruct (Z.le_gt_cases c (zlen x)).
    - rewrite !lastn_app_l by lia. reflexivity.
    - rewrite !lastn_app_r by lia. rewrite lastn_lastn by lia. f_equal. f_equal. lia.
  Qed.

  Lemma ifmt_ok frags : forall r d T, iinv t r T -> i_len r = cap -> lq_data (abst r T) = d ->
    Forall (fun b => zlen b < 2 ^ t_bits t) frags -> pos_ok t cap (T + zlen (concat frags)) ->
    exists r', std_write_fmt (iring_step t) iring_names r frags = Ret (r', None) /\
      ishows r' (lastn cap (d ++ concat frags)).
  Proof.
    induction frags as [|b frags IH]; intros r d T I L D Hf Hp.
    - exists r. split; [reflexivity|]. cbn [concat]. rewrite app_nil_r. exists T. split; [exact I|]. split; [exact L|].
      rewrite D. symmetry. apply lastn_all. pose proof (lq_data_len (abst r T) (i_bounds r T I)) as HD.
      rewrite D in HD. cbn [abst lq_len] in HD. pose proof (ii_rlen _ _ _ I). lia.
    - inversion Hf as [|? ? Hb1 Hf1]; subst. cbn [concat std_write_fmt] in *.
      pose proof (zlen_nonneg b). pose proof (zlen_nonneg (concat frags)). rewrite zlen_app in Hp.
      destruct (i_write_all_eq t Hb r T b I Hb1) as (r1 & E & I1 & A & L1); [rewrite L; eapply pos_ok_mono; [exact Hp|lia]|]. rewrite L in L1.
      cbn [iring_names n_write_all iring_step]. rewrite E. cbn [obind fst snd].
      destruct (IH r1 _ _ I1 L1 eq_refl Hf1) as (r2 & E2 & S2); [eapply pos_ok_mono; [exact Hp|lia]|].
      exists r2. split; [exact E2|]. rewrite A in S2.
      rewrite lq_data_push in S2 by (apply i_bounds; exact I). rewrite (abst_tape_len t Hb r T I), L in S2.
      rewrite <- lastn_step by (pose proof (ii_len _ _ _ I); lia). exact S2.
  Qed.

  Lemma iring_writers n r : iring_with_room t cap n r ->
    exists data, iring_left r data /\
    (forall frags, Forall (fun b => zlen b < 2 ^ t_bits t) frags -> zlen (concat frags) <= n -> exists r',
       std_write_fmt (iring_step t) iring_names r frags = Ret (r', None) /\
       iring_left r' (lastn cap (data ++ concat frags))) /\
    (forall bufs, let b := match find (fun b => 0 <? zlen b) bufs with Some b => b | None => [] end in
       Z.min (zlen b) cap <= n -> exists r',
       std_write_vectored (iring_step t) iring_names r bufs = Ret (r', OCount (Z.min (zlen b) cap)) /\
       iring_left r' (lastn cap (data ++ ztake cap b))).
  Proof.
    intros H. destruct (iwith_room_inv n r H) as (T & I & L & P).
    exists (lq_data (abst r T)). split; [apply ishows_left; exists T; auto|]. split.
    - intros frags Hf Hn. destruct (ifmt_ok frags r _ T I L eq_refl Hf) as (r' & E & S1).
      { eapply pos_ok_mono; [exact P|]. lia. }
      exists r'. split; [exact E|apply ishows_left; exact S1].
    - intros bufs b Hn.
      unfold std_write_vectored. replace (first_buf bufs) with b by (symmetry; apply first_buf_find).
      destruct (i_write_eq t Hb r T b I) as (r' & E & I' & A & L').
      { rewrite L. eapply pos_ok_mono; [exact P|]. lia. }
      rewrite L in *. cbn [iring_names n_write iring_step]. rewrite E. cbn [obind fst snd].
      exists r'. split; [reflexivity|]. apply ishows_left. eexists _. split; [exact I'|]. split; [lia|].
      rewrite A, lq_data_push by (apply i_bounds; exact I). rewrite (abst_tape_len t Hb r T I), L. reflexivity.
  Qed.

  Lemma iclient_serves {A} (c : client irop A) : forall r T, iinv t r T -> i_len r = cap -> exact_positions t cap ->
    asks (irop_ok t cap) c ->
    exists res, lserves (t_checks t) T (abst r T) c res /\
      match res with
      | Some (q, x) => exists r' T', client_run (iring_step t) r c = Ret (r', x) /\ iinv t r' T' /\
                         abst r' T' = q /\ i_len r' = cap
      | None => client_run (iring_step t) r c = Panic
      end.
  Proof.
    induction c as [x|o k IH]; intros r T I L X Ha; cbn [asks client_run] in *.
    - exists (Some (abst r T, x)). split; [constructor|]. exists r, T. auto.
    - destruct Ha as [Ho Hk]. rewrite <- L in X, Ho.
      destruct (istep_exact t Hg r T o I Ho X) as [[Hp E]|(Hn & r' & x & E & I' & S1 & L')].
      + exists None. split; [apply lserve_panic; exact Hp|]. rewrite E. reflexivity.
      + rewrite L in X. destruct (IH x r' _ I' ltac:(congruence) X (Hk x)) as (res & Q & M).
        exists res. split; [eapply lserve_call; eassumption|]. rewrite E. cbn [obind fst snd].
        destruct res as [[q y]|]; exact M.
  Qed.

  Lemma iring_clients {A} m (c : client irop A) : 0 < cap -> 2 * cap < 2 ^ t_bits t -> exact_positions t cap ->
    asks (irop_ok t cap) c ->
    exists res, lserves (t_checks t) 0 {| lq_tape := view m 0 cap; lq_len := 0 |} c res /\
      match res with
      | Some (q, x) => exists r, client_run (iring_step t) (iring_make cap m) c = Ret (r, x) /\ iring_shows t cap r q
      | None => client_run (iring_step t) (iring_make cap m) c = Panic
      end.
  Proof.
    intros Hc Hw X Ha. pose proof (imake_inv t Hb cap m Hc Hw) as I.
    destruct (iclient_serves c (iring_make cap m) 0 I eq_refl X Ha) as (res & Q & M).
    replace (abst (iring_make cap m) 0) with {| lq_tape := view m 0 cap; lq_len := 0 |} in Q.
    2:{ unfold abst. cbn [iring_make i_len i_mem i_rlen]. rewrite mirror_id by lia. reflexivity. }
    exists res. split; [exact Q|]. destruct res as [[q x]|]; [|exact M].
    destruct M as (r' & T' & E & I' & A' & L). exists r'. split; [exact E|].
    rewrite <- A', <- L. apply (iinv_shows t Hg), I'.
  Qed.
End Infinite.
