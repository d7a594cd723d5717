(** The code over the memory of a machine (MemRingModel.v) does what the code
    over N bytes (RingModel.v) does, on every machine whose memory at the
    ring's addresses behaves as N bytes shown twice. *)
From Coq Require Import Lia.
From Verif Require Import Base ErrorModel RingSpec RingModel OsModel MapModel SeqProofs SizeProofs RingProofs RingWeak MemRingModel.

Section Sim.
  Variable t : target.
  Hypothesis Hbits : 32 <= t_bits t <= 64.
  Variable W : Type.
  Variable peek : W -> Z -> out io_error byte.
  Variable poke : Z -> byte -> W -> out io_error unit * W.
  (** The ring's place, what its bytes are, and what else a store may do. *)
  Variables (ptr n : Z) (R : W -> (Z -> byte) -> Prop) (F : W -> W -> Prop).
  Hypothesis Hptr : 0 <= ptr.
  Hypothesis Hn : 0 < n.
  Hypothesis Hhigh : ptr + 2 * n <= 2 ^ t_bits t.
  Hypothesis Hpeek : forall w m v, R w m -> 0 <= v < 2 * n -> peek w (ptr + v) = Ret (m (v mod n)).
  Hypothesis Hpoke : forall w m v b, R w m -> 0 <= v < 2 * n ->
    exists w', poke (ptr + v) b w = (Ret tt, w') /\ R w' (upd m (v mod n) b) /\ F w w'.
  Hypothesis Frefl : forall w, F w w.
  Hypothesis Ftrans : forall a b c, F a b -> F b c -> F a c.

  Lemma loads_view w m : R w m -> forall k off, 0 <= off -> off + Z.of_nat k <= 2 * n ->
    loads W peek w (ptr + off) k = Ret (view (mirror m n) off (Z.of_nat k)).
  Proof.
    intros H k. induction k as [|k IH]; intros off H0 H1.
    - reflexivity.
    - cbn [loads]. rewrite (Hpeek w m off H) by lia. cbn [obind].
      replace (ptr + off + 1) with (ptr + (off + 1)) by lia. rewrite IH by lia. cbn [obind].
      rewrite (view_cons _ off) by lia. replace (Z.of_nat (S k) - 1) with (Z.of_nat k) by lia. reflexivity.
  Qed.
  Lemma stores_vstore d : forall w m off, R w m -> 0 <= off -> off + zlen d <= 2 * n ->
    exists w', stores W poke (ptr + off) d w = (Ret tt, w') /\ R w' (vstore n m off d) /\ F w w'.
  Proof.
    induction d as [|b d IH]; intros w m off H H0 H1.
    - exists w. cbn. auto.
    - rewrite zlen_cons in H1. pose proof (zlen_nonneg d). destruct (Hpoke w m off b H) as (w1 & E1 & R1 & F1); [lia|].
      destruct (IH w1 _ (off + 1) R1) as (w2 & E2 & R2 & F2); [lia|lia|].
      exists w2. cbn [stores vstore]. rewrite E1. replace (ptr + off + 1) with (ptr + (off + 1)) by lia.
      split; [exact E2|]. split; [exact R2|]. exact (Ftrans _ _ _ F1 F2).
  Qed.
  Lemma ptr_off off : 0 <= off < n -> ptr_add t ptr off = ptr + off.
  Proof. intros H. unfold ptr_add, as_usize. apply Z.mod_small. lia. Qed.

  Notation RM := (RM W).
  Lemma bind_ret {V A B} (x : RM V A) (f : A -> RM V B) s w a s' w' : x s w = (Ret a, (s', w')) -> mbind W x f s w = f a s' w'.
  Proof. intros H. unfold mbind. rewrite H. reflexivity. Qed.
  Lemma bind_panic {V A B} (x : RM V A) (f : A -> RM V B) s w st : x s w = (Panic, st) -> mbind W x f s w = (Panic, st).
  Proof. intros H. unfold mbind. rewrite H. reflexivity. Qed.
  Lemma bind_assoc {V A B C} (x : RM V A) (f : A -> RM V B) (g : B -> RM V C) s w :
    mbind W (mbind W x f) g s w = mbind W x (fun a => mbind W (f a) g) s w.
  Proof. unfold mbind. destruct (x s w) as [[a|e| | |] [s' w']]; reflexivity. Qed.

  Lemma load_step {V A} a len m off (f : bytes -> RM V A) s w : R w m -> a = ptr + off -> 0 <= off < n -> 0 <= len <= n ->
    mbind W (mload W peek a len) f s w = f (view (mirror m n) off len) s w.
  Proof.
    intros H -> Ho Hl. unfold mbind, mload. rewrite (loads_view w m H) by lia. rewrite Z2Nat.id by lia. reflexivity.
  Qed.
  Lemma store_step {V A} a d m off (f : unit -> RM V A) s w : R w m -> a = ptr + off -> 0 <= off -> off + zlen d <= 2 * n ->
    exists w', mbind W (mstore W poke a d) f s w = f tt s w' /\ R w' (vstore n m off d) /\ F w w'.
  Proof.
    intros H -> Ho Hl. destruct (stores_vstore d w m off H Ho Hl) as (w' & E & R' & F'). exists w'. split; [|auto].
    unfold mbind, mstore. rewrite E. reflexivity.
  Qed.

  (** A call on the machine against the same call on N bytes. *)
  Section Agree.
    Context {V S : Type}.
    Variables (mk : V -> (Z -> byte) -> S) (mem : S -> Z -> byte) (ok : V -> Prop).
    Hypothesis mem_mk : forall k m, mem (mk k m) = m.

    Definition agr {A} (w : W) (x : out io_error (S * A)) (y : out io_error A * (V * W)) : Prop :=
      match x with
      | Ret (r, a) => exists k w', y = (Ret a, (k, w')) /\ r = mk k (mem r) /\ ok k /\ R w' (mem r) /\ F w w'
      | Panic => exists k w' m, y = (Panic, (k, w')) /\ ok k /\ R w' m /\ F w w'
      | _ => False
      end.

    Lemma agr_from {A} w w1 x (y : out io_error A * (V * W)) : F w w1 -> agr w1 x y -> agr w x y.
    Proof.
      intros H. destruct x as [[r a]|e| | |]; cbn [agr]; try contradiction.
      - intros (k & w' & K). exists k, w'. intuition eauto.
      - intros (k & w' & m & K). exists k, w', m. intuition eauto.
    Qed.
    Lemma agr_bind {A B} w x (f : S * A -> out io_error (S * B)) (g : A -> RM V B) (h : RM V A) k0 :
      agr w x (h k0 w) ->
      (forall k m a w', x = Ret (mk k m, a) -> ok k -> R w' m -> agr w' (f (mk k m, a)) (g a k w')) ->
      agr w (obind x f) (mbind W h g k0 w).
    Proof.
      intros H K. destruct x as [[r a]|e| | |]; cbn [agr obind] in *; try contradiction.
      - destruct H as (k & w' & E & Er & Hk & Hr & Hf). unfold mbind. rewrite E. rewrite Er.
        apply (agr_from _ w'); [exact Hf|]. apply K; try assumption. rewrite <- Er. reflexivity.
      - destruct H as (k & w' & m & E & Hk & Hr & Hf). unfold mbind. rewrite E. exists k, w', m. auto.
    Qed.
    Lemma agr_ret {A} k m w (a : A) : ok k -> R w m -> agr w (Ret (mk k m, a)) (mret W a k w).
    Proof. intros Hk Hr. exists k, w. rewrite mem_mk. cbn. auto. Qed.
    Lemma agr_panic {A} k m w : ok k -> R w m -> agr (A:=A) w Panic (Panic, (k, w)).
    Proof. intros Hk Hr. exists k, w, m. auto. Qed.
    (** Calls that give back no value. *)
    Lemma agr_unit {B} w (x : out io_error S) (f : S -> out io_error (S * B)) (g : unit -> RM V B) (h : RM V unit) k0 :
      agr w (let* r := x in Ret (r, tt)) (h k0 w) ->
      (forall k m w', x = Ret (mk k m) -> ok k -> R w' m -> agr w' (f (mk k m)) (g tt k w')) ->
      agr w (obind x f) (mbind W h g k0 w).
    Proof.
      intros H K. replace (obind x f) with (obind (let* r := x in Ret (r, tt)) (fun p => f (fst p))) by (destruct x; reflexivity).
      apply agr_bind; [exact H|]. intros k m [] w' E Hk Hr. cbn [fst]. apply K; try assumption.
      destruct x; cbn in E; try discriminate E. congruence.
    Qed.
  End Agree.

  (** ** Ring *)
  Definition abs (k : kring) (m : Z -> byte) : ring := {| r_len := k_len k; r_rpos := k_rpos k; r_wpos := k_wpos k; r_mem := m |}.
  Definition fit (k : kring) : Prop := k_ptr k = ptr /\ k_len k = n /\ exists m d, winv t (abs k m) d.
  Definition fitd (k : kring) (d : Z) : Prop := k_ptr k = ptr /\ k_len k = n /\ forall m, winv t (abs k m) d.

  Lemma winv_mem k m m' d : winv t (abs k m) d -> winv t (abs k m') d.
  Proof. intros []. split; assumption. Qed.
  Lemma fit_d k : fit k <-> exists d, fitd k d.
  Proof.
    split.
    - intros (H1 & H2 & m & d & I). exists d. split; [exact H1|]. split; [exact H2|]. intros m'. exact (winv_mem _ _ _ _ I).
    - intros (d & H1 & H2 & I). split; [exact H1|]. split; [exact H2|]. exists (fun _ => 0), d. apply I.
  Qed.

  Definition agrees {A} := agr abs r_mem fit (A:=A).
  Lemma agrees_ret {A} k m w (a : A) : fit k -> R w m -> agrees w (Ret (abs k m, a)) (mret W a k w).
  Proof. apply agr_ret. reflexivity. Qed.
  Lemma agrees_panic {A} k m w : fit k -> R w m -> agrees (A:=A) w Panic (Panic, (k, w)).
  Proof. apply agr_panic. Qed.

  Lemma k_len_eq k m d : fitd k d -> kring_read_len t k = Ret d /\ kring_write_len t k = Ret (n - d) /\ 0 <= d <= n /\
    ring_read_len t (abs k m) = Ret d /\ ring_write_len t (abs k m) = Ret (n - d).
  Proof.
    intros (_ & El & I). pose proof (w_read_len t Hbits _ _ (I m)) as E1. pose proof (w_write_len t Hbits _ _ (I m)) as E2.
    pose proof (w_d _ _ _ (I m)) as Hd. cbn in Hd. rewrite El in Hd.
    replace (r_len (abs k m)) with n in E2 by (cbn; congruence). auto 10.
  Qed.
  Lemma k_off x k d : fitd k d -> urem x (k_len k) = Ret (x mod n) /\ 0 <= x mod n < n.
  Proof.
    intros (_ & -> & _). split; [|apply Z.mod_pos_bound, Hn]. unfold urem. destruct (Z.eqb_spec n 0); [lia|reflexivity].
  Qed.

  Lemma read_slice_k k d m max w : fitd k d -> 0 <= max -> exists off, 0 <= off < n /\
    as_read_slice t W (kring_ops t W) max k w = (Ret (ptr + off, Z.min d max), (k, w)) /\
    ring_read_slice t (abs k m) max = Ret (view (mirror m n) off (Z.min d max)) /\ 0 <= Z.min d max <= n.
  Proof.
    intros I Hm. destruct (k_len_eq k m d I) as (E1 & E2 & Hd & E3 & E4). destruct (k_off (as_usize t (k_rpos k)) k d I) as [Eo Ho].
    pose proof I as (Ep & El & _). exists (as_usize t (k_rpos k) mod n). split; [exact Ho|].
    unfold as_read_slice, mout, ring_read_slice, ring_read_offset. cbn [s_read_offset s_read_len s_ptr kring_ops r_rpos r_len r_mem abs].
    rewrite Eo, E1. cbn [obind]. rewrite Ep, (ptr_off _ Ho). split; [reflexivity|]. split; [|lia].
    change (ring_read_len t {| r_len := k_len k; r_rpos := k_rpos k; r_wpos := k_wpos k; r_mem := m |}) with (ring_read_len t (abs k m)).
    rewrite E3. cbn [obind]. rewrite El. unfold vslice.
    destruct (Z.leb_spec 0 (as_usize t (k_rpos k) mod n)); [|lia]. destruct (Z.leb_spec 0 (Z.min d max)); [|lia].
    destruct (Z.leb_spec (as_usize t (k_rpos k) mod n + Z.min d max) (2 * n)); [reflexivity|lia].
  Qed.
  Lemma write_slice_k k d m max w : fitd k d -> 0 <= max -> exists off, 0 <= off < n /\
    as_write_slice t W (kring_ops t W) max k w = (Ret (ptr + off, Z.min (n - d) max), (k, w)) /\
    ring_write_offset t (abs k m) = Ret off /\
    ring_write_slice t (abs k m) max = Ret (view (mirror m n) off (Z.min (n - d) max)) /\ 0 <= Z.min (n - d) max <= n.
  Proof.
    intros I Hm. destruct (k_len_eq k m d I) as (E1 & E2 & Hd & E3 & E4). destruct (k_off (as_usize t (k_wpos k)) k d I) as [Eo Ho].
    pose proof I as (Ep & El & _). exists (as_usize t (k_wpos k) mod n). split; [exact Ho|].
    unfold as_write_slice, mout, ring_write_slice, ring_write_offset. cbn [s_write_offset s_write_len s_ptr kring_ops r_wpos r_len r_mem abs].
    rewrite Eo, E2. cbn [obind]. rewrite Ep, (ptr_off _ Ho). split; [reflexivity|]. split; [reflexivity|]. split; [|lia].
    change (ring_write_len t {| r_len := k_len k; r_rpos := k_rpos k; r_wpos := k_wpos k; r_mem := m |}) with (ring_write_len t (abs k m)).
    rewrite E4. cbn [obind]. rewrite El. unfold vslice.
    destruct (Z.leb_spec 0 (as_usize t (k_wpos k) mod n)); [|lia]. destruct (Z.leb_spec 0 (Z.min (n - d) max)); [|lia].
    destruct (Z.leb_spec (as_usize t (k_wpos k) mod n + Z.min (n - d) max) (2 * n)); [reflexivity|lia].
  Qed.

  (** The assignments. *)
  Lemma feed_agrees k m w x : fit k -> 0 <= x -> R w m ->
    agrees w (let* r := ring_feed t (abs k m) x in Ret (r, tt)) (s_feed _ _ (kring_ops t W) x k w).
  Proof.
    intros Hk Hx Hr. apply fit_d in Hk as (d & Hk). destruct (k_len_eq k m d Hk) as (E1 & E2 & Hd & E3 & E4). pose proof Hk as (Ep & El & I).
    pose proof (w_feed t Hbits _ _ x (I m) Hx) as C. unfold ring_feed in *. rewrite E4 in *. cbn [obind abs r_wpos r_rpos r_len r_mem] in *.
    cbn [s_feed kring_ops]. unfold massign, agrees. rewrite E2. cbn [obind].
    destruct (add64 t (k_wpos k) (as_u64 (Z.min x (n - d)))) as [p|e| | |] eqn:Ea; cbn [obind] in *;
      try (destruct C as [(r' & C & _)|(C & _)]; discriminate C).
    - destruct C as [(r' & C & I' & _)|(C & _)]; [|discriminate C]. injection C as <-.
      cbn [agr]. do 2 eexists. split; [reflexivity|]. split; [reflexivity|]. split; [|auto].
      split; [exact Ep|]. split; [exact El|]. exists m. eexists. exact I'.
    - cbn [agr]. do 3 eexists. split; [reflexivity|]. split; [apply fit_d; eauto|]. split; [exact Hr|apply Frefl].
  Qed.
  Lemma consume_agrees k m w x : fit k -> 0 <= x -> R w m ->
    agrees w (let* r := ring_consume t (abs k m) x in Ret (r, tt)) (s_consume _ _ (kring_ops t W) x k w).
  Proof.
    intros Hk Hx Hr. apply fit_d in Hk as (d & Hk). destruct (k_len_eq k m d Hk) as (E1 & E2 & Hd & E3 & E4). pose proof Hk as (Ep & El & I).
    destruct (w_consume t Hbits _ _ x (I m) Hx) as (r' & C & I' & _). unfold ring_consume in *. rewrite E3 in *.
    cbn [obind abs r_wpos r_rpos r_len r_mem] in *. cbn [s_consume kring_ops]. unfold massign, agrees. rewrite E1. cbn [obind].
    destruct (add64 t (k_rpos k) (as_u64 (Z.min x d))) as [p|e| | |] eqn:Ea; cbn [obind] in *; try discriminate C.
    injection C as <-. cbn [agr]. do 2 eexists. split; [reflexivity|]. split; [reflexivity|]. split; [|auto].
    split; [exact Ep|]. split; [exact El|]. exists m. eexists. exact I'.
  Qed.

  Lemma peek_agrees k m w max : fit k -> R w m -> 0 <= max ->
    agrees w (let* s := ring_read_slice t (abs k m) max in Ret (abs k m, s)) (m_peek t W peek (kring_ops t W) max k w).
  Proof.
    intros Hk Hr Hm. pose proof Hk as Hk'. apply fit_d in Hk as (d & Hk). destruct (read_slice_k k d m max w Hk Hm) as (off & Ho & E1 & E2 & Hd).
    rewrite E2. unfold m_peek. rewrite (bind_ret _ _ _ _ _ _ _ E1). cbn [obind].
    unfold mload. rewrite (loads_view w m Hr) by lia. rewrite Z2Nat.id by lia. exists k, w. cbn. auto.
  Qed.

  Lemma slice_store_agrees k m w max i s : fit k -> R w m -> 0 <= max ->
    agrees w (let* r := ring_slice_store t (abs k m) max i s in Ret (r, tt)) (m_slice_store t W poke (kring_ops t W) max i s k w).
  Proof.
    intros Hk Hr Hm. pose proof Hk as Hk'. apply fit_d in Hk as (d & Hk). destruct (write_slice_k k d m max w Hk Hm) as (off & Ho & E1 & Eo & E2 & Hd).
    unfold ring_slice_store, m_slice_store. rewrite Eo, E2. cbn [obind]. rewrite (bind_ret _ _ _ _ _ _ _ E1).
    rewrite view_len, Z.max_r by lia. destruct ((0 <=? i) && (i + zlen s <=? Z.min (n - d) max)) eqn:B; cbn [obind].
    - apply andb_true_iff in B as [B1 B2]. apply Z.leb_le in B1. apply Z.leb_le in B2.
      destruct (stores_vstore s w m (off + i) Hr) as (w' & E & R' & F'); [lia|lia|].
      unfold mstore. replace (ptr + off + i) with (ptr + (off + i)) by lia. rewrite E.
      pose proof Hk as (Ep & El & I). exists k, w'. split; [reflexivity|]. cbn [r_mem abs r_len]. rewrite El. split; [|auto].
      unfold abs. cbn. rewrite El. reflexivity.
    - exists k, w, m. cbn. auto.
  Qed.

  Lemma write_agrees k m w b : fit k -> R w m ->
    agrees w (ring_write t (abs k m) b) (write_into t W poke (kring_ops t W) b k w).
  Proof.
    intros Hk Hr. pose proof Hk as Hk'. apply fit_d in Hk as (d & Hk).
    destruct (write_slice_k k d m (zlen b) w Hk (zlen_nonneg b)) as (off & Ho & E1 & Eo & E2 & Hd). pose proof (zlen_nonneg b) as Hb.
    unfold ring_write, write_into. rewrite (bind_ret _ _ _ _ _ _ _ E1).
    unfold ring_slice_store. rewrite Eo, E2. cbn [obind]. rewrite view_len, Z.max_r by lia.
    assert (Lt : zlen (ztake (Z.min (n - d) (zlen b)) b) = Z.min (n - d) (zlen b)) by (rewrite zlen_ztake; lia).
    rewrite Lt. destruct (Z.leb_spec (0 + Z.min (n - d) (zlen b)) (Z.min (n - d) (zlen b))); [|lia]. cbn [Z.leb Z.compare andb obind].
    destruct (store_step (ptr + off) (ztake (Z.min (n - d) (zlen b)) b) m off
                (fun _ => mbind W (s_feed _ _ (kring_ops t W) (Z.min (n - d) (zlen b))) (fun _ => mret W (Z.min (n - d) (zlen b)))) k w Hr eq_refl)
      as (w' & E & R' & F'); [lia|lia|].
    rewrite E. apply (agr_from _ _ _ _ w'); [exact F'|].
    replace {| r_len := r_len (abs k m); r_rpos := r_rpos (abs k m); r_wpos := r_wpos (abs k m);
               r_mem := vstore (r_len (abs k m)) (r_mem (abs k m)) (off + 0) (ztake (Z.min (n - d) (zlen b)) b) |}
      with (abs k (vstore n m off (ztake (Z.min (n - d) (zlen b)) b))).
    2:{ unfold abs. cbn. rewrite Z.add_0_r. destruct Hk' as (_ & -> & _). reflexivity. }
    apply agr_unit; [apply feed_agrees; [exact Hk'|lia|exact R']|].
    intros k2 m2 w2 _ K2 R2. apply agrees_ret; assumption.
  Qed.

  Lemma write_all_agrees f : forall k m w b, fit k -> R w m -> (length b <= f)%nat ->
    agrees w (ring_write_all_loop t f (abs k m) b) (write_all_loop t W poke (kring_ops t W) f b k w).
  Proof.
    induction f as [|f IH]; intros k m w b Hk Hr Hf.
    - destruct b; [|cbn in Hf; lia]. cbn. apply agrees_ret; assumption.
    - destruct b as [|b0 b]; [cbn; apply agrees_ret; assumption|]. cbn [ring_write_all_loop write_all_loop].
      set (s := b0 :: b) in *. eapply agr_bind; [apply write_agrees; assumption|].
      intros k' m' x w' Ex Hk' Hr'. cbn beta iota. destruct (Z.eqb_spec x 0).
      + apply agrees_ret; assumption.
      + apply IH; try assumption. apply fit_d in Hk as (d & _ & _ & I). pose proof (w_write t Hbits _ d s (I m)) as H. rewrite Ex in H.
        destruct H as (_ & _ & H). unfold zdrop. rewrite skipn_length. subst s. cbn [length] in *. lia.
  Qed.

  Lemma read_agrees k m w x : fit k -> R w m -> 0 <= x ->
    agrees w (ring_read t (abs k m) x) (read_from t W peek (kring_ops t W) x k w).
  Proof.
    intros Hk Hr Hx. pose proof Hk as Hk'. apply fit_d in Hk as (d & Hk). destruct (read_slice_k k d m x w Hk Hx) as (off & Ho & E1 & E2 & Hd).
    unfold ring_read, read_from. rewrite E2. rewrite (bind_ret _ _ _ _ _ _ _ E1). cbn [obind].
    rewrite (load_step _ _ m off) by (assumption || reflexivity). rewrite view_len, Z.max_r by lia.
    apply agr_unit; [apply consume_agrees; [exact Hk'|lia|exact Hr]|]. intros k2 m2 w2 _ K2 R2. apply agrees_ret; assumption.
  Qed.

  Lemma until_agrees f c : forall k m w acc, fit k -> R w m ->
    ring_read_until_loop t f (abs k m) c acc <> Blocked ->
    agrees w (ring_read_until_loop t f (abs k m) c acc) (read_until_loop t W peek (kring_ops t W) f c acc k w).
  Proof.
    assert (Hu : 0 <= umax t) by (unfold umax; lia).
    induction f as [|f IH]; intros k m w acc Hk Hr Hb; [contradiction Hb; reflexivity|].
    cbn [ring_read_until_loop read_until_loop] in *.
    replace (obind (ring_read_slice t (abs k m) (umax t)) _) with
      (obind (let* s := ring_read_slice t (abs k m) (umax t) in Ret (abs k m, s)) (fun p => let avail := snd p in
        match find_byte c avail with
        | Some i => let* r' := ring_consume t (abs k m) (i + 1) in Ret (r', acc ++ ztake (i + 1) avail)
        | None => let* r' := ring_consume t (abs k m) (zlen avail) in
                  if zlen avail =? 0 then Ret (r', acc) else ring_read_until_loop t f r' c (acc ++ avail)
        end)) by (destruct (ring_read_slice t (abs k m) (umax t)); reflexivity).
    eapply agr_bind; [apply peek_agrees; assumption|]. intros k' m' s w' Ex Hk' Hr'. cbn [snd].
    destruct (ring_read_slice t (abs k m) (umax t)) as [s'|e| | |]; cbn [obind] in *; try discriminate Ex.
    assert (s' = s) by congruence. subst s'. replace (abs k m) with (abs k' m') in * by congruence.
    destruct (find_byte c s) as [i|] eqn:Ef.
    - destruct (find_byte_some c s i Ef) as [Hi _]. apply agr_unit; [apply consume_agrees; [exact Hk'|lia|exact Hr']|].
      intros k2 m2 w2 _ K2 R2. apply agrees_ret; assumption.
    - pose proof (zlen_nonneg s). apply agr_unit; [apply consume_agrees; [exact Hk'|lia|exact Hr']|].
      intros k2 m2 w2 E2 K2 R2. rewrite E2 in Hb. cbn [obind] in Hb. destruct (zlen s =? 0); [apply agrees_ret; assumption|].
      apply IH; assumption.
  Qed.

  Lemma put_loop_agrees f : forall k m w b, fit k -> R w m -> ring_put_loop t f (abs k m) b <> Blocked ->
    agrees w (let* r := ring_put_loop t f (abs k m) b in Ret (r, tt)) (put_loop t W poke (kring_ops t W) f b k w).
  Proof.
    assert (Hu : 0 <= umax t) by (unfold umax; lia).
    induction f as [|f IH]; intros k m w b Hk Hr Hb.
    - destruct b; [cbn; apply agrees_ret; assumption|]. contradiction Hb. reflexivity.
    - destruct b as [|b0 b]; [cbn; apply agrees_ret; assumption|]. cbn [ring_put_loop put_loop] in *. set (s := b0 :: b) in *.
      pose proof Hk as Hk'. apply fit_d in Hk as (d & Hk). destruct (write_slice_k k d m (umax t) w Hk Hu) as (off & Ho & E1 & Eo & E2 & Hd).
      pose proof (zlen_nonneg s) as Hs.
      unfold ring_chunk_mut, ring_slice_store in *. rewrite Eo in *. rewrite E2 in *. cbn [obind] in *. rewrite (bind_ret _ _ _ _ _ _ _ E1).
      rewrite view_len, Z.max_r in * by lia. set (L := Z.min (n - d) (umax t)) in *.
      assert (Lt : zlen (ztake (Z.min L (zlen s)) s) = Z.min L (zlen s)) by (rewrite zlen_ztake; lia).
      rewrite Lt in *. destruct (Z.leb_spec (0 + Z.min L (zlen s)) L); [|lia]. cbn [Z.leb Z.compare andb obind] in *.
      destruct (store_step (ptr + off) (ztake (Z.min L (zlen s)) s) m off
                (fun _ => mbind W (s_feed _ _ (kring_ops t W) (Z.min L (zlen s))) (fun _ => put_loop t W poke (kring_ops t W) f (zdrop (Z.min L (zlen s)) s))) k w Hr eq_refl)
        as (w' & E & R' & F'); [lia|lia|].
      rewrite E. apply (agr_from _ _ _ _ w'); [exact F'|].
      replace {| r_len := r_len (abs k m); r_rpos := r_rpos (abs k m); r_wpos := r_wpos (abs k m);
                 r_mem := vstore (r_len (abs k m)) (r_mem (abs k m)) (off + 0) (ztake (Z.min L (zlen s)) s) |}
        with (abs k (vstore n m off (ztake (Z.min L (zlen s)) s))) in *.
      2:{ unfold abs. cbn. rewrite Z.add_0_r. destruct Hk' as (_ & -> & _). reflexivity. }
      unfold ring_advance_mut in *. set (m' := vstore n m off _) in *.
      replace (let* r := (let* r2 := ring_feed t (abs k m') (Z.min L (zlen s)) in ring_put_loop t f r2 (zdrop (Z.min L (zlen s)) s)) in Ret (r, tt))
        with (let* r2 := ring_feed t (abs k m') (Z.min L (zlen s)) in let* r := ring_put_loop t f r2 (zdrop (Z.min L (zlen s)) s) in Ret (r, tt))
        by (destruct (ring_feed t (abs k m') (Z.min L (zlen s))); reflexivity).
      apply agr_unit; [apply feed_agrees; [exact Hk'|lia|exact R']|]. intros k2 m2 w2 Ef K2 R2. rewrite Ef in Hb. cbn [obind] in Hb.
      apply IH; assumption.
  Qed.

  Lemma step_agrees k m w o : fit k -> R w m -> rop_ok t o -> agrees w (ring_step t (abs k m) o) (kring_step t W peek poke o k w).
  Proof.
    intros Hk Hr Ho. pose proof Hk as Hk'. apply fit_d in Hk as (d & Hd). pose proof Hd as (_ & El & I).
    destruct o as [b|b|x|x|x|max i s|max|c|b|]; cbn [ring_step kring_step rop_ok] in *; unfold is_usize in *.
    - eapply agr_bind; [apply write_agrees; assumption|]. intros. apply agrees_ret; assumption.
    - eapply agr_bind; [apply write_all_agrees; auto|]. intros. apply agrees_ret; assumption.
    - eapply agr_bind; [apply read_agrees; lia || assumption|]. intros. apply agrees_ret; assumption.
    - eapply agr_unit; [apply consume_agrees; lia || assumption|]. intros. apply agrees_ret; assumption.
    - eapply agr_unit; [apply feed_agrees; lia || assumption|]. intros. apply agrees_ret; assumption.
    - eapply agr_unit; [apply slice_store_agrees; lia || assumption|]. intros. apply agrees_ret; assumption.
    - replace (let* s := ring_read_slice t (abs k m) max in Ret (abs k m, OBytes s)) with
        (let* p := (let* s := ring_read_slice t (abs k m) max in Ret (abs k m, s)) in Ret (fst p, OBytes (snd p)))
        by (destruct (ring_read_slice t (abs k m) max); reflexivity).
      eapply agr_bind; [apply peek_agrees; lia || assumption|]. intros. apply agrees_ret; assumption.
    - eapply agr_bind; [apply until_agrees; try assumption|intros; apply agrees_ret; assumption].
      pose proof (w_read_until t Hbits _ _ c (I m)) as H. unfold ring_read_until in H. intros E. rewrite E in H. exact H.
    - unfold ring_put_slice, put_slice. destruct (k_len_eq k m d Hd) as (E1 & E2 & Hdd & E3 & E4). unfold ring_remaining_mut. rewrite E4. cbn [obind].
      rewrite bind_assoc. assert (E5 : mout W (s_write_len _ _ (kring_ops t W)) k w = (Ret (n - d), (k, w))) by (unfold mout; cbn; rewrite E2; reflexivity).
      rewrite (bind_ret _ _ _ _ _ _ _ E5). destruct (Z.ltb_spec (n - d) (zlen b)) as [Hl|Hl].
      + cbn. eapply agrees_panic; eassumption.
      + eapply agr_unit; [apply put_loop_agrees; try assumption|intros; apply agrees_ret; assumption].
        pose proof (w_put_loop t Hbits (length b) _ _ b (I m) (le_n _)) as H. intros E. rewrite E in H. apply H. cbn [abs r_len]. lia.
    - exists (Build_kring (k_ptr k) (k_len k) 0 0), w. split; [reflexivity|]. split; [reflexivity|]. split; [|auto].
      destruct Hk' as (Hp & _ & _). split; [exact Hp|]. split; [exact El|]. exists m, 0. destruct (I m).
      constructor; cbn in *; try assumption; try lia; reflexivity.
  Qed.

  (** ** InfiniteRing *)
  Definition iabs (k : kiring) (m : Z -> byte) : iring := {| i_len := ki_len k; i_rlen := ki_rlen k; i_wpos := ki_wpos k; i_mem := m |}.
  Definition ifit (k : kiring) : Prop := ki_ptr k = ptr /\ ki_len k = n /\ 2 * n <= 2 ^ t_bits t /\ 0 <= ki_rlen k <= n /\ 0 <= ki_wpos k < 2 ^ 64.
  Definition iagrees {A} := agr iabs i_mem ifit (A:=A).
  Lemma iagrees_ret {A} k m w (a : A) : ifit k -> R w m -> iagrees w (Ret (iabs k m, a)) (mret W a k w).
  Proof. apply agr_ret. reflexivity. Qed.
  Lemma iagrees_panic {A} k m w : ifit k -> R w m -> iagrees (A:=A) w Panic (Panic, (k, w)).
  Proof. apply agr_panic. Qed.

  Lemma bits_64 : 2 ^ t_bits t <= 2 ^ 64.
  Proof. apply Z.pow_le_mono_r; lia. Qed.
  Lemma i_rlen_eq k : ifit k -> as_usize t (ki_rlen k) = ki_rlen k.
  Proof. intros (_ & _ & Hw & Hr & _). unfold as_usize. apply Z.mod_small. lia. Qed.
  Lemma wrap_64 x : (exists p, wrap (E:=io_error) (t_checks t) 64 x = Ret p /\ 0 <= p < 2 ^ 64 /\ (0 <= x < 2 ^ 64 -> p = x)) \/
    (wrap (E:=io_error) (t_checks t) 64 x = Panic /\ ~ 0 <= x < 2 ^ 64).
  Proof.
    destruct (Z_le_gt_dec 0 x) as [G1|G1]; [destruct (Z_lt_le_dec x (2 ^ 64)) as [G2|G2]|].
    - left. exists x. rewrite wrap_in by lia. auto.
    - unfold wrap. destruct (Z.leb_spec 0 x); [|lia]. destruct (Z.ltb_spec x (2 ^ 64)); [lia|]. cbn [andb].
      destruct (t_checks t); [right; split; [reflexivity|lia]|left]. eexists. split; [reflexivity|]. split; [apply Z.mod_pos_bound; lia|lia].
    - unfold wrap. destruct (Z.leb_spec 0 x); [lia|]. cbn [andb].
      destruct (t_checks t); [right; split; [reflexivity|lia]|left]. eexists. split; [reflexivity|]. split; [apply Z.mod_pos_bound; lia|lia].
  Qed.
  Lemma i_urem x k : ifit k -> urem x (ki_len k) = Ret (x mod n) /\ 0 <= x mod n < n.
  Proof.
    intros (_ & -> & _). split; [|apply Z.mod_pos_bound, Hn]. unfold urem. destruct (Z.eqb_spec n 0); [lia|reflexivity].
  Qed.
  Lemma vslice_in m off x : 0 <= off < n -> 0 <= x <= n -> vslice n m off x = Ret (view (mirror m n) off x).
  Proof.
    intros Ho Hx. unfold vslice. destruct (Z.leb_spec 0 off); [|lia]. destruct (Z.leb_spec 0 x); [|lia].
    destruct (Z.leb_spec (off + x) (2 * n)); [reflexivity|lia].
  Qed.

  Lemma iread_slice_k k m max w : ifit k -> 0 <= max ->
    (exists off, 0 <= off < n /\
      as_read_slice t W (kiring_ops t W) max k w = (Ret (ptr + off, Z.min (ki_rlen k) max), (k, w)) /\
      iring_read_slice t (iabs k m) max = Ret (view (mirror m n) off (Z.min (ki_rlen k) max)) /\ 0 <= Z.min (ki_rlen k) max <= n) \/
    (as_read_slice t W (kiring_ops t W) max k w = (Panic, (k, w)) /\ iring_read_slice t (iabs k m) max = Panic).
  Proof.
    intros I Hm. unfold as_read_slice, mout, iring_read_slice, iring_read_offset, iring_read_len.
    cbn [s_read_offset s_read_len s_ptr kiring_ops i_rlen i_wpos i_len i_mem iabs]. rewrite (i_rlen_eq k I). unfold sub64.
    destruct (wrap_64 (ki_wpos k - ki_rlen k)) as [(p & -> & Hp & _)|[-> _]]; cbn [obind]; [left|right; auto].
    destruct (i_urem (as_usize t p) k I) as [-> Ho]. cbn [obind]. pose proof I as (Ep & El & _ & Hr & _). rewrite Ep, El, ptr_off by exact Ho.
    exists (as_usize t p mod n). rewrite vslice_in by lia. repeat split; lia.
  Qed.
  Lemma iwrite_slice_k k m max w : ifit k -> 0 <= max -> exists off, 0 <= off < n /\
    as_write_slice t W (kiring_ops t W) max k w = (Ret (ptr + off, Z.min n max), (k, w)) /\
    iring_write_offset t (iabs k m) = Ret off /\
    iring_write_slice t (iabs k m) max = Ret (view (mirror m n) off (Z.min n max)) /\ 0 <= Z.min n max <= n.
  Proof.
    intros I Hm. unfold as_write_slice, mout, iring_write_slice, iring_write_offset, iring_write_len, iring_write_capacity.
    cbn [s_write_offset s_write_len s_ptr kiring_ops i_rlen i_wpos i_len i_mem iabs].
    destruct (i_urem (as_usize t (ki_wpos k)) k I) as [-> Ho]. cbn [obind]. pose proof I as (Ep & El & _). rewrite Ep, El, ptr_off by exact Ho.
    exists (as_usize t (ki_wpos k) mod n). rewrite vslice_in by lia. repeat split; lia.
  Qed.

  Lemma ifeed_agrees k m w x : ifit k -> 0 <= x -> R w m ->
    iagrees w (let* r := iring_feed t (iabs k m) x in Ret (r, tt)) (s_feed _ _ (kiring_ops t W) x k w).
  Proof.
    intros I Hx Hr. pose proof I as (Ep & El & Hw & Hrl & Hwp). pose proof bits_64.
    unfold iring_feed, iring_write_len, iring_write_capacity, add64. cbn [s_feed kiring_ops iabs i_len i_rlen i_wpos i_mem].
    unfold mbind, massign, add64.
    destruct (wrap_64 (ki_wpos k + as_u64 (Z.min x (ki_len k)))) as [(p & -> & Hp & _)|[-> _]]; cbn [obind]; [|eapply iagrees_panic; eassumption].
    cbn [ki_rlen ki_len ki_wpos ki_ptr].
    destruct (wrap_64 (ki_rlen k + as_u64 x)) as [(q & -> & Hq & _)|[-> _]]; cbn [obind].
    - do 2 eexists. split; [reflexivity|]. split; [reflexivity|]. split; [|auto]. unfold ifit. cbn.
      assert (as_u64 (ki_len k) = n) by (rewrite El; unfold as_u64; apply Z.mod_small; lia). repeat split; try assumption; lia.
    - eapply iagrees_panic; [|exact Hr]. unfold ifit. cbn. repeat split; try assumption; lia.
  Qed.
  Lemma iconsume_agrees k m w x : ifit k -> 0 <= x -> R w m ->
    iagrees w (let* r := iring_consume t (iabs k m) x in Ret (r, tt)) (s_consume _ _ (kiring_ops t W) x k w).
  Proof.
    intros I Hx Hr. pose proof I as (Ep & El & Hw & Hrl & Hwp). pose proof bits_64.
    unfold iring_consume, iring_read_len, sub64. cbn [s_consume kiring_ops iabs i_len i_rlen i_wpos i_mem].
    unfold massign, sub64. rewrite (i_rlen_eq k I). assert (as_u64 (Z.min x (ki_rlen k)) = Z.min x (ki_rlen k)) as -> by (unfold as_u64; apply Z.mod_small; lia).
    rewrite wrap_in by lia. cbn [obind].
    do 2 eexists. split; [reflexivity|]. split; [reflexivity|]. split; [|auto]. unfold ifit. cbn. repeat split; try assumption; lia.
  Qed.
  Lemma ipeek_agrees k m w max : ifit k -> R w m -> 0 <= max ->
    iagrees w (let* s := iring_read_slice t (iabs k m) max in Ret (iabs k m, s)) (m_peek t W peek (kiring_ops t W) max k w).
  Proof.
    intros I Hr Hm. unfold m_peek. destruct (iread_slice_k k m max w I Hm) as [(off & Ho & E1 & E2 & Hd)|(E1 & E2)]; rewrite E2; cbn [obind].
    - rewrite (bind_ret _ _ _ _ _ _ _ E1). unfold mload. rewrite (loads_view w m Hr) by lia. rewrite Z2Nat.id by lia. exists k, w. cbn. auto.
    - rewrite (bind_panic _ _ _ _ _ E1). eapply iagrees_panic; eassumption.
  Qed.
  Lemma iread_agrees k m w x : ifit k -> R w m -> 0 <= x ->
    iagrees w (iring_read t (iabs k m) x) (read_from t W peek (kiring_ops t W) x k w).
  Proof.
    intros I Hr Hx. unfold iring_read, read_from. destruct (iread_slice_k k m x w I Hx) as [(off & Ho & E1 & E2 & Hd)|(E1 & E2)]; rewrite E2; cbn [obind].
    - rewrite (bind_ret _ _ _ _ _ _ _ E1). rewrite (load_step _ _ m off) by (assumption || reflexivity). rewrite view_len, Z.max_r by lia.
      apply agr_unit; [apply iconsume_agrees; [exact I|lia|exact Hr]|]. intros k2 m2 w2 _ K2 R2. apply iagrees_ret; assumption.
    - rewrite (bind_panic _ _ _ _ _ E1). eapply iagrees_panic; eassumption.
  Qed.
  Lemma iabs_store k m off d : ifit k ->
    {| i_len := i_len (iabs k m); i_rlen := i_rlen (iabs k m); i_wpos := i_wpos (iabs k m);
       i_mem := vstore (i_len (iabs k m)) (i_mem (iabs k m)) off d |} = iabs k (vstore n m off d).
  Proof. intros (_ & El & _). unfold iabs. cbn. rewrite El. reflexivity. Qed.
  Lemma islice_store_agrees k m w max i s : ifit k -> R w m -> 0 <= max ->
    iagrees w (let* r := iring_slice_store t (iabs k m) max i s in Ret (r, tt)) (m_slice_store t W poke (kiring_ops t W) max i s k w).
  Proof.
    intros I Hr Hm. destruct (iwrite_slice_k k m max w I Hm) as (off & Ho & E1 & Eo & E2 & Hd).
    unfold iring_slice_store, m_slice_store. rewrite Eo, E2. cbn [obind]. rewrite (bind_ret _ _ _ _ _ _ _ E1).
    rewrite view_len, Z.max_r by lia. destruct ((0 <=? i) && (i + zlen s <=? Z.min n max)) eqn:B; cbn [obind].
    - apply andb_true_iff in B as [B1 B2]. apply Z.leb_le in B1. apply Z.leb_le in B2.
      destruct (stores_vstore s w m (off + i) Hr) as (w' & E & R' & F'); [lia|lia|].
      unfold mstore. replace (ptr + off + i) with (ptr + (off + i)) by lia. rewrite E, iabs_store by exact I.
      exists k, w'. cbn [i_mem iabs]. auto.
    - eapply iagrees_panic; eassumption.
  Qed.
  Lemma istore_feed_agrees {B} k m w a off d x (f : unit -> RM kiring B) (g : iring -> out io_error (iring * B)) :
    ifit k -> R w m -> a = ptr + off -> 0 <= off < n -> zlen d <= n -> 0 <= x ->
    (forall k' m' w', ifit k' -> R w' m' -> iagrees w' (g (iabs k' m')) (f tt k' w')) ->
    iagrees w (let* r := iring_feed t (iabs k (vstore n m off d)) x in g r)
      (mbind W (mstore W poke a d) (fun _ => mbind W (s_feed _ _ (kiring_ops t W) x) f) k w).
  Proof.
    intros I Hr -> Ho Hd Hx K.
    destruct (store_step (ptr + off) d m off (fun _ => mbind W (s_feed _ _ (kiring_ops t W) x) f) k w Hr eq_refl) as (w' & E & R' & F'); [lia|lia|].
    rewrite E. apply (agr_from _ _ _ _ w'); [exact F'|]. apply agr_unit; [apply ifeed_agrees; assumption|]. intros k2 m2 w2 _ K2 R2. apply K; assumption.
  Qed.
  Lemma iwrite_agrees k m w b : ifit k -> R w m ->
    iagrees w (iring_write t (iabs k m) b) (write_into t W poke (kiring_ops t W) b k w).
  Proof.
    intros I Hr. pose proof (zlen_nonneg b) as Hb. destruct (iwrite_slice_k k m (zlen b) w I Hb) as (off & Ho & E1 & Eo & E2 & Hd).
    unfold iring_write, write_into. rewrite (bind_ret _ _ _ _ _ _ _ E1).
    unfold iring_slice_store. rewrite Eo, E2. cbn [obind]. rewrite view_len, Z.max_r by lia.
    assert (Lt : zlen (ztake (Z.min n (zlen b)) b) = Z.min n (zlen b)) by (rewrite zlen_ztake; lia).
    rewrite Lt. destruct (Z.leb_spec (0 + Z.min n (zlen b)) (Z.min n (zlen b))); [|lia]. cbn [Z.leb Z.compare andb obind].
    rewrite iabs_store by exact I. rewrite Z.add_0_r. apply istore_feed_agrees; try assumption; try lia.
    intros. apply iagrees_ret; assumption.
  Qed.
  Lemma iwrite_all_agrees k m w b : ifit k -> R w m -> zlen b < 2 ^ t_bits t ->
    iagrees w (let* r := iring_write_all t (iabs k m) b in Ret (r, tt)) (kiring_write_all t W poke b k w).
  Proof.
    intros I Hr Hl. pose proof (zlen_nonneg b) as Hb. destruct (iwrite_slice_k k m (zlen b) w I Hb) as (off & Ho & E1 & Eo & E2 & Hd).
    unfold iring_write_all, kiring_write_all. rewrite (bind_ret _ _ _ _ _ _ _ E1).
    unfold iring_slice_store. rewrite Eo, E2. cbn [obind]. rewrite view_len, Z.max_r by lia.
    set (len := Z.min n (zlen b)) in *. assert (Eu : usub (E:=io_error) t (zlen b) len = Ret (zlen b - len)) by (unfold usub; apply wrap_in; lia).
    rewrite Eu. cbn [obind].
    assert (E5 : mout W (fun _ : kiring => Ret (zlen b - len)) k w = (Ret (zlen b - len), (k, w))) by reflexivity.
    rewrite (bind_ret _ _ _ _ _ _ _ E5).
    assert (Lt : zlen (zdrop (zlen b - len) b) = len) by (rewrite zlen_zdrop; lia).
    rewrite Lt. destruct (Z.leb_spec (0 + len) len); [|lia]. cbn [Z.leb Z.compare andb obind]. rewrite Z.eqb_refl.
    rewrite iabs_store by exact I. rewrite Z.add_0_r.
    destruct (store_step (ptr + off) (zdrop (zlen b - len) b) m off (fun _ => s_feed _ _ (kiring_ops t W) len) k w Hr eq_refl) as (w' & E & R' & F'); [lia|lia|].
    rewrite E. apply (agr_from _ _ _ _ w'); [exact F'|]. apply ifeed_agrees; [exact I|lia|exact R'].
  Qed.

  Lemma istep_agrees k m w o : ifit k -> R w m -> irop_args t o -> iagrees w (iring_step t (iabs k m) o) (kiring_step t W peek poke o k w).
  Proof.
    intros Hk Hr Ho. destruct o as [b|b|x|x|x|max i s|max]; cbn [iring_step kiring_step irop_args] in *; unfold is_usize in *.
    - eapply agr_bind; [apply iwrite_agrees; assumption|]. intros. apply iagrees_ret; assumption.
    - eapply agr_unit; [apply iwrite_all_agrees; lia || assumption|]. intros. apply iagrees_ret; assumption.
    - eapply agr_bind; [apply iread_agrees; lia || assumption|]. intros. apply iagrees_ret; assumption.
    - eapply agr_unit; [apply iconsume_agrees; lia || assumption|]. intros. apply iagrees_ret; assumption.
    - eapply agr_unit; [apply ifeed_agrees; lia || assumption|]. intros. apply iagrees_ret; assumption.
    - eapply agr_unit; [apply islice_store_agrees; lia || assumption|]. intros. apply iagrees_ret; assumption.
    - replace (let* s := iring_read_slice t (iabs k m) max in Ret (iabs k m, OBytes s)) with
        (let* p := (let* s := iring_read_slice t (iabs k m) max in Ret (iabs k m, s)) in Ret (fst p, OBytes (snd p)))
        by (destruct (iring_read_slice t (iabs k m) max); reflexivity).
      eapply agr_bind; [apply ipeek_agrees; lia || assumption|]. intros. apply iagrees_ret; assumption.
  Qed.
End Sim.
