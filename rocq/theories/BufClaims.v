(** The property-level statements about [BufReader] and [BufWriter]. *)
From Coq Require Import Lia Permutation.
From Verif Require Import Base ErrorModel RingSpec RingModel BufSpec BufModel SeqProofs SizeProofs
  RingExactSpec RingProofs RingTheorems RingWeak RingClaims RingExact RingExactClaims BufReaderProofs BufReasons BufWriterProofs BufWeak.

(** ** States reached by a history *)
Definition fresh_source (src : bytes) (script : list ranswer) : rsource :=
  {| rs_src := src; rs_script := script; rs_asked := [] |}.
Definition fresh_sink (script : list wanswer) : wsink :=
  {| ws_log := []; ws_script := script; ws_calls := [] |}.

(** A reader over an honest source, after the calls [os]. *)
Definition br_reached (t : target) (cap : Z) (src : bytes) (script : list ranswer) (os : list brop)
    (b : bufreader) (delivered : bytes) (rs : list (out io_error unit)) : Prop :=
  0 < cap /\ 2 * cap < 2 ^ t_bits t /\ pos_ok t cap (zlen src) /\ Forall honest script /\
  Forall (brop_ok t) os /\
  exists m, br_run t (br_new (fresh_source src script) cap m) os = (b, delivered, rs).

(** A reader over any source at all. *)
Definition br_any (t : target) (cap : Z) (src : bytes) (script : list ranswer) (os : list brop)
    (b : bufreader) (rs : list (out io_error unit)) : Prop :=
  0 < cap /\ 2 * cap < 2 ^ t_bits t /\ Forall (ranswer_ok t) script /\ Forall (brop_ok t) os /\
  exists m d, br_run t (br_new (fresh_source src script) cap m) os = (b, d, rs).

(** A writer made from the ring [r0] (itself the result of the calls [os0],
    none for [BufWriter::new]) over an honest sink, after the calls [os]. *)
Definition bw_reached (t : target) (cap : Z) (os0 : list rop) (r0 : ring) (script : list wanswer)
    (os : list bwop) (b : bufwriter) (told : bytes) (rs : list (out io_error unit)) : Prop :=
  ring_reached t cap os0 r0 /\ pos_ok t cap (total_after 0 cap os0 + bwops_weight os) /\
  Forall whonest script /\
  bw_run t (bw_from_parts (fresh_sink script) r0) os = (b, told, rs).

(** The same without a bound on the bytes carried, for capacities whose
    positions are exact. *)
Definition bw_live (t : target) (cap : Z) (os0 : list rop) (r0 : ring) (script : list wanswer)
    (os : list bwop) (b : bufwriter) (told : bytes) (rs : list (out io_error unit)) : Prop :=
  ring_live t cap os0 r0 /\ Forall whonest script /\
  bw_run t (bw_from_parts (fresh_sink script) r0) os = (b, told, rs).
Definition bw_ok (t : target) (cap : Z) (os0 : list rop) (r0 : ring) (script : list wanswer)
    (os : list bwop) (b : bufwriter) (told : bytes) (rs : list (out io_error unit)) : Prop :=
  bw_reached t cap os0 r0 script os b told rs \/ bw_live t cap os0 r0 script os b told rs.

Definition bw_any (t : target) (cap : Z) (m : Z -> byte) (script : list wanswer)
    (os : list bwop) (b : bufwriter) (rs : list (out io_error unit)) : Prop :=
  0 < cap /\ 2 * cap < 2 ^ t_bits t /\ Forall (wanswer_ok t) script /\
  exists told, bw_run t (bw_from_parts (fresh_sink script) (ring_make cap m)) os = (b, told, rs).

Section C.
  Variable t : target.
  Hypothesis Hg : good_target t.
  Let Hbits := good_bits t Hg.

  (** *** Reader *)
  Lemma reached_bi cap src script os b d rs : br_reached t cap src script os b d rs ->
    exists data free, bi t cap src b d data free /\ Forall (fun r => r <> Fault) rs /\
      (forall pre, rs = pre ++ [Blocked] -> rs_script (br_src b) = []).
  Proof.
    intros (Hc & Hw & Hp & Hh & Ho & m & E).
    pose proof (br_new_bi t Hbits cap Hc Hw src script m [] Hh) as B0.
    destruct (br_run_spec t Hbits cap Hc Hw src Hp os _ _ _ _ B0 Ho) as (b' & d' & data & free & rs' & E' & B' & F & K).
    change {| rs_src := src; rs_script := script; rs_asked := [] |} with (fresh_source src script) in E'.
    rewrite E' in E. injection E as -> -> ->. exists data, free. auto.
  Qed.

  Lemma stream_claim cap src script os b d rs : br_reached t cap src script os b d rs ->
    Forall (fun r => r <> Fault) rs /\
    (forall pre, rs = pre ++ [Blocked] -> rs_script (br_src b) = []) /\
    exists buffered, br_buffer t b = Ret buffered /\ d ++ buffered ++ rs_src (br_src b) = src.
  Proof.
    intros H. pose proof H as (Hc & Hw & Hp & Hh & Ho & m & E).
    destruct (reached_bi _ _ _ _ _ _ _ H) as (data & free & B & F & K).
    split; [exact F|]. split; [exact K|]. exists data.
    destruct (bi_ring t Hbits cap Hc Hw src _ _ _ _ B) as (_ & _ & EB). split; [exact EB|].
    destruct B as (T & R & _ & _ & _ & _ & _ & _ & Hx). exact Hx.
  Qed.

  Lemma until_claim cap src script os b d rs c b' s r : br_reached t cap src script os b d rs ->
    br_read_until t b c = (b', s, r) ->
    exists buffered buffered', br_buffer t b = Ret buffered /\ br_buffer t b' = Ret buffered' /\
      s ++ buffered' ++ rs_src (br_src b') = buffered ++ rs_src (br_src b) /\
      match r with
      | Ret _ => flowed (br_src b) (br_src b') /\
                 ((exists l, s = l ++ [c] /\ ~ In c l) \/
                  (~ In c s /\ buffered' = [] /\ ran_dry (br_src b) (br_src b')))
      | Err e => ~ In c s /\ broke (br_src b) (br_src b') e
      | Panic => ~ In c s /\ blew (br_src b) (br_src b')
      | Blocked => ~ In c s /\ rs_script (br_src b') = []
      | Fault => False
      end.
  Proof.
    intros H E. pose proof H as (Hc & Hw & Hp & Hh & Ho & m & _).
    destruct (reached_bi _ _ _ _ _ _ _ H) as (data & free & B & F & K).
    unfold br_read_until in E. pose proof B as B0. rewrite <- (app_nil_r d) in B0.
    destruct (until_spec t Hbits cap Hc Hw src Hp (2 * length (rs_script (br_src b)) + 3) b c d [] data free B0)
      as (b1 & acc1 & data1 & free1 & r1 & E1 & B1 & _ & M); [intros []|].
    rewrite E1 in E. injection E as -> -> ->. exists data, data1.
    destruct (bi_ring t Hbits cap Hc Hw src _ _ _ _ B) as (_ & _ & EB).
    destruct (bi_ring t Hbits cap Hc Hw src _ _ _ _ B1) as (_ & _ & EB1).
    split; [exact EB|]. split; [exact EB1|]. split.
    - destruct B as (T & R & _ & _ & _ & _ & _ & _ & Hx). destruct B1 as (T1 & R1 & _ & _ & _ & _ & _ & _ & Hx1).
      rewrite <- Hx in Hx1. rewrite <- app_assoc in Hx1. apply app_inv_head in Hx1. exact Hx1.
    - pose proof (until_why t Hbits cap Hc Hw src Hp _ _ _ _ _ _ _ _ _ _ B0 (fun x : In c [] => x) E1) as Y.
      destruct r; cbn [why] in Y.
      + destruct Y as (Y1 & Y2). split; [exact Y1|]. destruct M as [M|(M1 & M2 & _)]; auto.
      + destruct M as (M1 & _). auto.
      + auto.
      + exact M.
      + destruct M as (M1 & M2). split; [exact M1|]. apply M2. unfold until_measure. destruct (_ <? _); lia.
  Qed.

  Lemma exact_claim cap src script os b d rs n b' s r : br_reached t cap src script os b d rs -> is_usize t n ->
    br_read_exact t b n = (b', s, r) ->
    exists buffered buffered', br_buffer t b = Ret buffered /\ br_buffer t b' = Ret buffered' /\
      s ++ buffered' ++ rs_src (br_src b') = buffered ++ rs_src (br_src b) /\
      match r with
      | Ret _ => zlen s = n /\ flowed (br_src b) (br_src b')
      | Err e => zlen s < n /\
                 ((e = IoSimple UnexpectedEof /\ ran_dry (br_src b) (br_src b')) \/ broke (br_src b) (br_src b') e)
      | Panic => zlen s < n /\ blew (br_src b) (br_src b')
      | Blocked => zlen s < n /\ rs_script (br_src b') = []
      | Fault => False
      end.
  Proof.
    intros H Hn E. pose proof H as (Hc & Hw & Hp & Hh & Ho & m & _). unfold is_usize in Hn.
    destruct (reached_bi _ _ _ _ _ _ _ H) as (data & free & B & F & K).
    unfold br_read_exact in E. pose proof B as B0. rewrite <- (app_nil_r d) in B0.
    destruct (exact_spec t Hbits cap Hc Hw src Hp (Z.to_nat n + length (rs_script (br_src b)) + 1) b n d [] data free B0)
      as (b1 & acc1 & data1 & free1 & r1 & E1 & B1 & _ & M); [lia|].
    rewrite E1 in E. cbn [app] in E, B1. injection E as -> -> ->. exists data, data1.
    destruct (bi_ring t Hbits cap Hc Hw src _ _ _ _ B) as (_ & _ & EB).
    destruct (bi_ring t Hbits cap Hc Hw src _ _ _ _ B1) as (_ & _ & EB1).
    split; [exact EB|]. split; [exact EB1|]. split.
    - destruct B as (T & R & _ & _ & _ & _ & _ & _ & Hx). destruct B1 as (T1 & R1 & _ & _ & _ & _ & _ & _ & Hx1).
      rewrite <- Hx in Hx1. rewrite <- app_assoc in Hx1. apply app_inv_head in Hx1. exact Hx1.
    - pose proof (exact_why t Hbits cap Hc Hw src Hp _ _ _ _ _ _ _ _ _ _ B0 (proj1 Hn) E1) as Y.
      destruct r; cbn [why_exact] in Y.
      + auto.
      + destruct M as (M1 & _). auto.
      + auto.
      + exact M.
      + destruct M as (M1 & M2). split; [exact M1|]. apply M2. lia.
  Qed.

  Lemma any_rgood cap src script os b rs : br_any t cap src script os b rs ->
    rgood t cap b /\ Forall (fun r => r <> Fault) rs.
  Proof.
    intros (Hc & Hw & Hs & Ho & m & d & E).
    eapply (br_run_weak t Hbits cap); [|exact Ho|exact E].
    split; [exists 0; apply (w_make t Hbits); [exact Hc|lia]|]. split; [reflexivity|]. split; [exact Hs|cbn; lia].
  Qed.

  Lemma rgood_cap b cap : rgood t cap b ->
    exists d, ring_read_len t (br_ring b) = Ret d /\ ring_write_len t (br_ring b) = Ret (cap - d) /\ 0 <= d <= cap /\
      (exists s, br_buffer t b = Ret s /\ zlen s = d).
  Proof.
    intros ([d I] & L & _). exists d. rewrite (w_read_len t Hbits _ _ I), (w_write_len t Hbits _ _ I), L.
    pose proof (w_d _ _ _ I) as Hd. split; [reflexivity|]. split; [reflexivity|]. split; [lia|].
    destruct (w_read_slice t Hbits _ _ (umax t) I) as (s & Es & Ls); [apply (umax_nonneg t Hbits)|].
    exists s. split; [exact Es|]. destruct I. unfold umax in Ls. lia.
  Qed.

  (** fill_buf in any state. *)
  Lemma fill_any cap b d b' r : rgood t cap b -> ring_read_len t (br_ring b) = Ret d -> br_fill_buf t b = (b', r) ->
    (br_lowat b < d /\ b' = b /\ exists s, r = Ret s /\ zlen s = d) \/
    (d <= br_lowat b /\ exists x res, src_read (cap - d) (br_src b) = (br_src b', x, res) /\
       match res with
       | Ret k => r = Panic \/ exists s, r = Ret s /\ zlen s = d + Z.min k (cap - d)
       | Err e => r = Err e
       | Panic => r = Panic
       | Blocked => r = Blocked
       | Fault => False
       end).
  Proof.
    intros G Ed E. pose proof G as ([d0 I] & L & Hs & Hlw). pose proof (umax_nonneg t Hbits) as Hu.
    rewrite (w_read_len t Hbits _ _ I) in Ed. injection Ed as ->.
    unfold br_fill_buf in E. rewrite (w_read_len t Hbits _ _ I) in E. cbn [sbind] in E.
    assert (Hmax : r_len (br_ring b) <= umax t) by (destruct I; unfold umax; lia).
    destruct (Z.leb_spec d (br_lowat b)) as [Hl|Hl].
    2:{ left. split; [exact Hl|]. cbn [sbind] in E. injection E as <- <-. split; [reflexivity|].
        destruct (w_read_slice t Hbits _ _ (umax t) I Hu) as (s & Es & Ls). exists s. split; [exact Es|].
        destruct I. lia. }
    right. split; [exact Hl|].
    destruct (w_write_slice t Hbits _ _ (umax t) I Hu) as (w & Ew & Lw). rewrite Ew in E. cbn [sbind] in E.
    assert (Hw : zlen w = cap - d) by (destruct I; lia). rewrite Hw in E.
    destruct (src_read (cap - d) (br_src b)) as [[s' x] res] eqn:Er.
    assert (Hcd : 0 <= cap - d) by (pose proof (zlen_nonneg w); lia).
    destruct (src_weak t Hbits _ _ _ _ _ Hcd Hs Er) as (Hs' & Hx & Hres).
    cbn [br_with_src br_ring br_src br_lowat] in E.
    unfold ring_slice_store in E. rewrite Ew in E. unfold ring_write_offset in E. rewrite (w_urem t _ _ _ I) in E.
    cbn [obind] in E. destruct (Z.leb_spec (0 + zlen x) (zlen w)) as [_|Hbad]; [|lia].
    cbn [andb Z.leb Z.compare obind on_ring sbind] in E.
    set (r1 := {| r_len := _ |}) in E.
    assert (I1 : winv t r1 d) by (destruct I; constructor; assumption).
    destruct res as [k|e| | |]; cbn [sbind] in E.
    - cbn [br_with_ring br_ring] in E.
      destruct (w_feed t Hbits _ _ k I1 Hres) as [(r2 & E2 & I2 & L2)|(E2 & _)]; rewrite E2 in E; cbn [on_ring sbind] in E;
        injection E as <- <-; exists x, (Ret k); (split; [reflexivity|]).
      + right. destruct (w_read_slice t Hbits _ _ (umax t) I2 Hu) as (s & Es & Ls). exists s. split; [exact Es|].
        change (r_len r1) with (r_len (br_ring b)) in *. destruct I. lia.
      + left. reflexivity.
    - injection E as <- <-. exists x, (Err e). auto.
    - injection E as <- <-. exists x, Panic. auto.
    - contradiction.
    - injection E as <- <-. exists x, Blocked. auto.
  Qed.

  Lemma src_asked n s s' x res : src_read n s = (s', x, res) ->
    (rs_script s = [] /\ s' = s /\ res = Blocked) \/
    (exists a, rs_script s = a :: rs_script s' /\ rs_asked s' = rs_asked s ++ [n]).
  Proof.
    unfold src_read. destruct (rs_script s) as [|a rest] eqn:E.
    - intros X. injection X as <- _ <-. auto.
    - intros X. right. exists a. destruct a; injection X as <- _ _; cbn; auto.
  Qed.

  (** C45 *)
  Lemma lowat_claim cap src script os b rs b' r : br_any t cap src script os b rs ->
    br_fill_buf t b = (b', r) ->
    exists d, ring_read_len t (br_ring b) = Ret d /\
      (br_lowat b < d -> rs_asked (br_src b') = rs_asked (br_src b) /\ rs_script (br_src b') = rs_script (br_src b)) /\
      (d <= br_lowat b -> r <> Blocked -> rs_asked (br_src b') = rs_asked (br_src b) ++ [cap - d]) /\
      (r = Blocked -> d <= br_lowat b /\ rs_script (br_src b) = []).
  Proof.
    intros A E. destruct (any_rgood _ _ _ _ _ _ A) as (G & _).
    destruct (rgood_cap _ _ G) as (d & Ed & _). exists d. split; [exact Ed|].
    destruct (fill_any _ _ _ _ _ G Ed E) as [(Hl & -> & s & -> & _)|(Hl & x & res & ES & M)].
    - split; [auto|]. split; [lia|discriminate].
    - split; [lia|]. destruct (src_asked _ _ _ _ _ ES) as [(S0 & _ & ->)|(a & Sa & Asa)].
      + split; [congruence|]. auto.
      + split; [auto|]. intros ->. exfalso. unfold src_read in ES. rewrite Sa in ES.
        destruct a; injection ES as _ _ <-; try discriminate M.
        * destruct M as [M|(? & M & _)]; discriminate M.
        * destruct M as [M|(? & M & _)]; discriminate M.
  Qed.

  Lemma bypass_claim cap src script os b rs n b' s r : br_any t cap src script os b rs -> is_usize t n ->
    br_read t b n = (b', s, r) ->
    exists d, ring_read_len t (br_ring b) = Ret d /\
      (d = 0 /\ cap <= n -> br_ring b' = br_ring b /\ src_read n (br_src b) = (br_src b', s, r)) /\
      (~ (d = 0 /\ cap <= n) -> exists b1 r1, br_fill_buf t b = (b1, r1) /\ br_src b' = br_src b1).
  Proof.
    intros A Hn E. unfold is_usize in Hn. destruct (any_rgood _ _ _ _ _ _ A) as (G & _).
    destruct (rgood_cap _ _ G) as (d & Ed & _). exists d. split; [exact Ed|]. pose proof G as (I & L & Hs).
    unfold br_read in E. rewrite Ed in E. cbn [sbind] in E. unfold ring_write_capacity in E. rewrite L in E.
    split.
    - intros [-> Hc]. destruct (Z.leb_spec cap n); [|lia]. cbn [andb Z.eqb] in E.
      destruct (src_read n (br_src b)) as [[s' x] res] eqn:ES. injection E as <- <- <-. auto.
    - intros Hnot. destruct ((d =? 0) && (cap <=? n)) eqn:Eb.
      { exfalso. apply andb_prop in Eb. destruct Eb as [X Y]. apply Z.eqb_eq in X. apply Z.leb_le in Y. tauto. }
      destruct (br_fill_buf t b) as [b1 r1] eqn:E1. exists b1, r1. split; [reflexivity|].
      destruct (fill_weak t Hbits cap _ _ _ G E1) as (G1 & N1 & _).
      destruct r1 as [avail|e| | |]; try (injection E as <- _ _; reflexivity).
      destruct (br_consume t b1 (zlen (ztake n avail))) as [b2 r2] eqn:E2.
      assert (S2 : br_src b2 = br_src b1).
      { unfold br_consume, on_ring in E2. destruct (ring_consume t (br_ring b1) (zlen (ztake n avail))); injection E2 as <- _; reflexivity. }
      destruct (consume_weak t Hbits cap _ _ _ _ G1 (zlen_nonneg _) E2) as (_ & ->). injection E as <- _ _. exact S2.
  Qed.

  (** C46 *)
  Lemma eof_claim cap src script os b rs n b' s : br_any t cap src script os b rs -> is_usize t n -> 0 < n ->
    br_read t b n = (b', s, Ret 0) ->
    br_buffer t b = Ret [] /\ exists x, src_read (if cap <=? n then n else cap) (br_src b) = (br_src b', x, Ret 0).
  Proof.
    intros A Hn Hpos E. destruct (any_rgood _ _ _ _ _ _ A) as (G & _).
    destruct (rgood_cap _ _ G) as (d & Ed & _ & Hd & sb & EB & LB).
    destruct (bypass_claim _ _ _ _ _ _ _ _ _ _ A Hn E) as (d' & Ed' & C1 & C2).
    rewrite Ed in Ed'. injection Ed' as <-. unfold is_usize in Hn.
    destruct (Z.eq_dec d 0) as [->|Hd0].
    - assert (sb = []) by (apply zlen_0; exact LB). subst sb. split; [exact EB|].
      destruct (Z.leb_spec cap n) as [Hc|Hc].
      + destruct (C1 (conj eq_refl Hc)) as (_ & ES). exists s. exact ES.
      + destruct (C2 ltac:(lia)) as (b1 & r1 & E1 & Es).
        destruct (fill_any _ _ _ _ _ G Ed E1) as [(Hl & -> & s1 & -> & Ls)|(Hl & x & res & ES & M)].
        * pose proof G as (_ & _ & _ & Hlw). lia.
        * rewrite Z.sub_0_r in ES. exists x. rewrite Es.
          (* the read returned 0, so the filled buffer is empty *)
          unfold br_read in E. rewrite Ed in E. cbn [sbind] in E. unfold ring_write_capacity in E.
          pose proof G as (_ & L & Hs & _). rewrite L in E. destruct (Z.leb_spec cap n); [lia|]. cbn [andb Z.eqb] in E.
          rewrite E1 in E. destruct res as [k|e| | |]; try (subst r1; discriminate E); [|contradiction].
          destruct M as [-> |(s1 & -> & Ls)]; [discriminate E|].
          destruct (br_consume t b1 (zlen (ztake n s1))) as [b2 r2] eqn:E2.
          destruct (fill_weak t Hbits cap _ _ _ G E1) as (G1 & _ & _).
          destruct (consume_weak t Hbits cap _ _ _ _ G1 (zlen_nonneg _) E2) as (_ & ->).
          injection E as _ _ E. rewrite zlen_ztake in E by lia.
          destruct (src_weak t Hbits _ _ _ _ _ (proj1 (conj (ltac:(lia) : 0 <= cap) Logic.I)) Hs ES) as (_ & _ & Hk).
          replace k with 0 in ES by lia. exact ES.
    - exfalso. destruct (C2 ltac:(lia)) as (b1 & r1 & E1 & Es).
      unfold br_read in E. rewrite Ed in E. cbn [sbind] in E. unfold ring_write_capacity in E.
      destruct (Z.eqb_spec d 0); [lia|]. cbn [andb] in E. rewrite E1 in E.
      destruct (fill_weak t Hbits cap _ _ _ G E1) as (G1 & _ & _). pose proof G as (_ & L & Hs & _).
      destruct r1 as [avail|e| | |]; try discriminate E.
      destruct (br_consume t b1 (zlen (ztake n avail))) as [b2 r2] eqn:E2.
      destruct (consume_weak t Hbits cap _ _ _ _ G1 (zlen_nonneg _) E2) as (_ & ->). injection E as _ _ E.
      rewrite zlen_ztake in E by lia.
      destruct (fill_any _ _ _ _ _ G Ed E1) as [(Hl & -> & s1 & X & Ls)|(Hl & x & res & ES & M)].
      + injection X as ->. lia.
      + assert (Hcd : 0 <= cap - d) by lia.
        destruct (src_weak t Hbits _ _ _ _ _ Hcd Hs ES) as (_ & _ & Hk).
        destruct res as [k|e| | |]; try discriminate M; [|contradiction].
        destruct M as [M|(s1 & X & Ls)]; [discriminate M|]. injection X as ->. lia.
  Qed.
End C.

Section D.
  Variable t : target.
  Hypothesis Hg : good_target t.
  Let Hbits := good_bits t Hg.

  Lemma reached_wi cap os0 r0 script os b told rs : bw_ok t cap os0 r0 script os b told rs ->
    0 < cap /\ 2 * cap < 2 ^ t_bits t /\
    exists data0 data free T, ring_read_slice t r0 (umax t) = Ret data0 /\ wi t cap b data free T /\
      (T <= total_after 0 cap os0 + bwops_weight os \/ exact_positions t cap) /\
      Permutation (data0 ++ told) (accepted (bw_sink b) ++ data) /\
      (never_fits t (bw_from_parts (fresh_sink script) r0) os -> data0 ++ told = accepted (bw_sink b) ++ data) /\
      (~ In Blocked rs -> flag_ok b) /\
      Forall (fun r => r <> Fault) rs /\ (In Blocked rs -> ws_script (bw_sink b) = []).
  Proof.
    intros H.
    assert (P : 0 < cap /\ 2 * cap < 2 ^ t_bits t /\ Forall whonest script /\
      bw_run t (bw_from_parts (fresh_sink script) r0) os = (b, told, rs) /\
      exists T R, inv t r0 T R /\ r_len r0 = cap /\ room t cap (T + bwops_weight os) /\
        (T <= total_after 0 cap os0 \/ exact_positions t cap)).
    { destruct H as [(HR & Hp & Hh & E)|(HR & Hh & E)]; pose proof HR as (Hc & Hw & HX); do 4 (split; [assumption|]).
      - destruct (reached_inv t Hg cap os0 r0 HR) as (T & R & I & L & B). exists T, R.
        split; [exact I|]. split; [exact L|]. split; [|left; exact B]. left. eapply pos_ok_mono; [exact Hp|]. lia.
      - destruct (live_inv t Hg cap os0 r0 HR) as (T & R & I & L). exists T, R.
        split; [exact I|]. split; [exact L|]. destruct HX as (HX & _). split; right; auto. }
    destruct P as (Hc & Hw & Hh & E & T & R & I & L & Hr & B). split; [exact Hc|]. split; [exact Hw|].
    set (q := absq r0 T R).
    assert (W0 : wi t cap (bw_from_parts (fresh_sink script) r0) (q_data q) (q_free q) T).
    { exists R. cbn [bw_from_parts bw_ring bw_sink fresh_sink ws_script]. split; [exact I|].
      split; [unfold q; destruct (absq r0 T R); reflexivity|]. auto. }
    destruct (bw_run_spec t Hbits cap Hc Hw os _ _ _ _ W0) as (b' & d & data & free & T' & rs' & E' & W & HT & Pm & Ord & Fl & F & K).
    { exact Hr. }
    rewrite E in E'. injection E' as <- <- <-.
    destruct (wi_ring t Hbits cap Hc Hw _ _ _ _ W0) as (_ & _ & _ & EB).
    exists (q_data q), data, free, T'. split; [exact EB|]. split; [exact W|]. split; [destruct B; [left; lia|right; assumption]|].
    split; [exact Pm|]. split; [exact Ord|]. split; [apply Fl; reflexivity|]. auto.
  Qed.

  (** C47, C48 *)
  Lemma conserve_claim cap os0 r0 script os b told rs : bw_ok t cap os0 r0 script os b told rs ->
    Forall (fun r => r <> Fault) rs /\ (In Blocked rs -> ws_script (bw_sink b) = []) /\
    exists data0 data, ring_read_slice t r0 (umax t) = Ret data0 /\ bw_buffer t b = Ret data /\
      Permutation (data0 ++ told) (accepted (bw_sink b) ++ data) /\
      (never_fits t (bw_from_parts (fresh_sink script) r0) os -> data0 ++ told = accepted (bw_sink b) ++ data).
  Proof.
    intros H. destruct (reached_wi _ _ _ _ _ _ _ _ H) as (Hc & Hw & data0 & data & free & T & E0 & W & _ & Pm & Ord & _ & F & K).
    split; [exact F|]. split; [exact K|]. exists data0, data. split; [exact E0|].
    destruct (wi_ring t Hbits cap Hc Hw _ _ _ _ W) as (_ & _ & _ & EB). auto.
  Qed.

  Lemma overtake_claim cap os0 r0 script os b told rs data buf k rest :
    bw_ok t cap os0 r0 script os b told rs -> bw_buffer t b = Ret data -> data <> [] ->
    zlen data + zlen buf = cap -> ws_script (bw_sink b) = Take k :: rest ->
    exists b', bw_write t b buf = (b', Ret (zlen (ztake k buf))) /\ bw_buffer t b' = Ret data /\
      accepted (bw_sink b') = accepted (bw_sink b) ++ ztake k buf.
  Proof.
    intros H Eb Hne Hz Hs.
    destruct (reached_wi _ _ _ _ _ _ _ _ H) as (Hc & Hw & data0 & data1 & free & T & E0 & W & HT & _).
    destruct (wi_ring t Hbits cap Hc Hw _ _ _ _ W) as (_ & EW & _ & EB). rewrite Eb in EB. injection EB as <-.
    pose proof (wi_lens t Hbits cap _ _ _ _ W) as HL.
    unfold bw_write. rewrite EW. cbn [sbind]. destruct (Z.ltb_spec (zlen free) (zlen buf)); [lia|].
    cbn [sbind]. rewrite EW. cbn [sbind]. destruct (Z.leb_spec (zlen free) (zlen buf)); [|lia].
    destruct (bw_inner_write b buf) as [b' r] eqn:Ei.
    pose proof (wi_inner t cap _ _ _ _ _ _ _ W Ei) as W'.
    unfold bw_inner_write, sink_write in Ei. rewrite Hs in Ei. injection Ei as <- <-.
    eexists. split; [reflexivity|]. destruct (wi_ring t Hbits cap Hc Hw _ _ _ _ W') as (_ & _ & _ & EB'). split; [exact EB'|].
    unfold accepted. cbn [bw_sink ws_log]. rewrite flat_map_app. cbn. rewrite app_nil_r. reflexivity.
  Qed.

  (** C49 *)
  Lemma flush_claim cap os0 r0 script os b told rs b' r : bw_ok t cap os0 r0 script os b told rs ->
    bw_flush t b = (b', r) ->
    exists data data', bw_buffer t b = Ret data /\ bw_buffer t b' = Ret data' /\
      accepted (bw_sink b') ++ data' = accepted (bw_sink b) ++ data /\
      match r with
      | Ret _ => data' = [] /\ exists log, ws_log (bw_sink b') = log ++ [Flushed] /\
                   flat_map event_bytes log = accepted (bw_sink b) ++ data
      | Err e => (exists pre, ws_script (bw_sink b) = pre ++ ws_script (bw_sink b') /\ stopped pre e) /\
                 (io_kind_of e = Interrupted -> data' = [])
      | Panic => exists pre, ws_script (bw_sink b) = pre ++ ws_script (bw_sink b') /\ boomed pre
      | Blocked => ws_script (bw_sink b') = []
      | Fault => False
      end.
  Proof.
    intros H E. destruct (reached_wi _ _ _ _ _ _ _ _ H) as (Hc & Hw & data0 & data & free & T & E0 & W & _).
    destruct (bw_flush_spec t Hbits cap Hc Hw _ _ _ _ W) as (b1 & p & data' & free' & r1 & pre & E1 & W1 & Hd & Ha & Hs & _ & M).
    rewrite E1 in E. injection E as -> ->. exists data, data'.
    destruct (wi_ring t Hbits cap Hc Hw _ _ _ _ W) as (_ & _ & _ & EB).
    destruct (wi_ring t Hbits cap Hc Hw _ _ _ _ W1) as (_ & _ & _ & EB1).
    split; [exact EB|]. split; [exact EB1|]. split; [rewrite Ha, Hd, <- app_assoc; reflexivity|].
    destruct r; try exact M; [|exists pre; auto]. split; [exists pre; split; [exact Hs|apply M]|apply M].
  Qed.

  (** C50 *)
  Lemma into_inner_claim cap os0 r0 script os b told rs : bw_ok t cap os0 r0 script os b told rs ->
    exists data, bw_buffer t b = Ret data /\
      match bw_into_inner t b with
      | Inner s => accepted s = accepted (bw_sink b) ++ data
      | Back b' e =>
        exists data' pre, bw_buffer t b' = Ret data' /\ data' <> [] /\
          accepted (bw_sink b') ++ data' = accepted (bw_sink b) ++ data /\
          ws_script (bw_sink b) = pre ++ ws_script (bw_sink b') /\ stopped pre e /\ io_kind_of e <> Interrupted /\
          iie_error (b', e) = e /\ bw_buffer t (iie_into_inner (b', e)) = Ret data'
      | Unwound s r =>
        (exists rest, accepted s ++ rest = accepted (bw_sink b) ++ data) /\
        ((r = Panic /\ exists pre, ws_script (bw_sink b) = pre ++ ws_script s /\ boomed pre) \/ (r = Blocked /\ ws_script s = []))
      end.
  Proof.
    intros H. destruct (reached_wi _ _ _ _ _ _ _ _ H) as (Hc & Hw & data0 & data & free & T & E0 & W & _).
    destruct (wi_ring t Hbits cap Hc Hw _ _ _ _ W) as (_ & _ & _ & EB). exists data. split; [exact EB|].
    unfold bw_into_inner, bw_flush_buf.
    destruct (flush_strong t Hbits cap Hc Hw (S (length (ws_script (bw_sink b)))) _ _ _ _ W)
      as (b1 & p & data1 & free1 & r1 & pre & E1 & W1 & Hd & (ds & Hl & Hcn) & Hs & _ & _ & M).
    rewrite E1. pose proof (accepted_flush _ _ _ _ Hl Hcn) as Ha.
    assert (Eq : accepted (bw_sink b1) ++ data1 = accepted (bw_sink b) ++ data) by (rewrite Ha, Hd, <- app_assoc; reflexivity).
    destruct (wi_ring t Hbits cap Hc Hw _ _ _ _ W1) as (_ & _ & _ & EB1).
    destruct r1 as [u|e| | |]; try contradiction M.
    - destruct M as [-> _]. rewrite app_nil_r in Eq. exact Eq.
    - destruct M as (M1 & M2 & M3). exists data1, pre. auto 10.
    - destruct M as (_ & M2 & M3). unfold bw_drop. rewrite M3. cbn [fst]. split; [exists data1; exact Eq|left; split; [reflexivity|]]. exists pre. auto.
    - destruct M as (_ & M); [lia|]. split; [exists data1; exact Eq|right; auto].
  Qed.

  (** C51 *)
  Lemma parts_claim cap os0 r0 script os b told rs : bw_ok t cap os0 r0 script os b told rs ->
    ~ In Blocked rs ->
    exists data, bw_buffer t b = Ret data /\
      let '(s, (r, panicked)) := bw_into_parts b in
      accepted s = accepted (bw_sink b) /\ ws_calls s = ws_calls (bw_sink b) /\
      ring_read_slice t r (umax t) = Ret data /\
      panicked = last_write_panicked (bw_sink b) /\
      (last_write_panicked (bw_sink b) = true -> bw_drop t b = (bw_sink b, Ret tt)).
  Proof.
    intros H Hnb. destruct (reached_wi _ _ _ _ _ _ _ _ H) as (Hc & Hw & data0 & data & free & T & E0 & W & _ & _ & _ & Fl & _).
    destruct (wi_ring t Hbits cap Hc Hw _ _ _ _ W) as (_ & _ & _ & EB). exists data. split; [exact EB|].
    cbn [bw_into_parts]. specialize (Fl Hnb). split; [reflexivity|]. split; [reflexivity|]. split; [exact EB|].
    split; [exact Fl|]. intros X. unfold bw_drop. unfold flag_ok in Fl. rewrite Fl, X. reflexivity.
  Qed.

  (** C52 *)
  Lemma drop_claim cap os0 r0 script os b told rs s r : bw_ok t cap os0 r0 script os b told rs ->
    ~ In Blocked rs -> last_write_panicked (bw_sink b) = false ->
    bw_drop t b = (s, r) ->
    exists data p rest pre, bw_buffer t b = Ret data /\ data = p ++ rest /\
      accepted s = accepted (bw_sink b) ++ p /\ ws_script (bw_sink b) = pre ++ ws_script s /\
      match r with
      | Ret _ => rest = [] \/ exists e, stopped pre e /\ io_kind_of e <> Interrupted
      | Err _ => False
      | Panic => boomed pre
      | Blocked => ws_script s = []
      | Fault => False
      end /\
      (Forall willing (ws_script (bw_sink b)) -> (r = Ret tt /\ rest = []) \/ r = Blocked).
  Proof.
    intros H Hnb Hlp E. destruct (reached_wi _ _ _ _ _ _ _ _ H) as (Hc & Hw & data0 & data & free & T & E0 & W & _ & _ & _ & Fl & _).
    specialize (Fl Hnb). unfold flag_ok in Fl. rewrite Hlp in Fl.
    destruct (wi_ring t Hbits cap Hc Hw _ _ _ _ W) as (_ & _ & _ & EB).
    unfold bw_drop, bw_flush_buf in E. rewrite Fl in E.
    destruct (flush_strong t Hbits cap Hc Hw (S (length (ws_script (bw_sink b)))) _ _ _ _ W)
      as (b1 & p & data1 & free1 & r1 & pre & E1 & W1 & Hd & (ds & Hl & Hcn) & Hs & _ & _ & M).
    rewrite E1 in E. pose proof (accepted_flush _ _ _ _ Hl Hcn) as Ha. injection E as <- <-.
    exists data, p, data1, pre. split; [exact EB|]. split; [exact Hd|]. split; [exact Ha|]. split; [exact Hs|].
    assert (Wl : Forall willing (ws_script (bw_sink b)) -> forall a, In a pre -> willing a).
    { intros HF a Hi. rewrite Forall_forall in HF. apply HF. rewrite Hs. apply in_or_app. left. exact Hi. }
    destruct r1 as [u|e| | |]; try contradiction M.
    - destruct M as [M _]. split; [left; exact M|]. intros _. left. destruct u. auto.
    - destruct M as (_ & M2 & M3). split; [right; exists e; auto|]. intros HF. exfalso.
      apply stopped_refused in M3. destruct M3 as [M3|(_ & k & Hk & M3)]; pose proof (Wl HF _ M3) as X; cbn in X; [contradiction|lia].
    - destruct M as (_ & M2 & _). split; [exact M2|]. intros HF. exfalso. exact (Wl HF _ (boomed_in _ M2)).
    - destruct M as (_ & M2); [lia|]. split; [exact M2|]. auto.
  Qed.

  (** C59 *)
  Lemma any_wgood cap m script os b rs : bw_any t cap m script os b rs ->
    wgood t cap b /\ Forall (fun r => r <> Fault) rs.
  Proof.
    intros (Hc & Hw & Hs & told & E). eapply (bw_run_weak t Hbits cap); [|exact E].
    split; [exists 0; apply (w_make t Hbits); [exact Hc|lia]|]. split; [reflexivity|exact Hs].
  Qed.

  Lemma writer_safe_claim cap m script os b rs : bw_any t cap m script os b rs ->
    Forall (fun r => r <> Fault) rs /\
    (exists data wl, bw_buffer t b = Ret data /\ ring_write_len t (bw_ring b) = Ret wl /\ 0 <= wl /\ zlen data + wl = cap) /\
    snd (bw_drop t b) <> Fault.
  Proof.
    intros A. destruct (any_wgood _ _ _ _ _ _ A) as (G & F). split; [exact F|]. split.
    - destruct G as ([d I] & L & _). pose proof (umax_nonneg t Hbits) as Hu.
      destruct (w_read_slice t Hbits _ _ (umax t) I Hu) as (s & Es & Ls).
      exists s, (cap - d). split; [exact Es|]. rewrite (w_write_len t Hbits _ _ I), L. destruct I. unfold umax in Ls.
      split; [reflexivity|]. split; lia.
    - destruct (bw_drop t b) as [s r] eqn:E. apply (drop_weak t Hbits cap _ _ _ G E).
  Qed.

  Lemma reader_safe_claim cap src script os b rs : br_any t cap src script os b rs ->
    Forall (fun r => r <> Fault) rs /\
    exists data wl, br_buffer t b = Ret data /\ ring_write_len t (br_ring b) = Ret wl /\ 0 <= wl /\ zlen data + wl = cap.
  Proof.
    intros A. destruct (any_rgood t Hg _ _ _ _ _ _ A) as (G & F). split; [exact F|].
    destruct (rgood_cap t Hg _ _ G) as (d & _ & Ew & Hd & s & Es & Ls). exists s, (cap - d).
    split; [exact Es|]. split; [exact Ew|]. lia.
  Qed.
End D.
