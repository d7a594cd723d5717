(** Lemmas behind the theorems about ring allocation on macOS and iOS. *)
From Coq Require Import Lia.
From Verif Require Import Base Spec ErrorModel SizeModel OsModel MapModel MapSpec RingMapModel RingMapSpec SizeProofs OsProofs
  MapProofs MirrorProofs RingMapClaims MachModel MachSpec MachProofs.

Section Claims.
  Variable t : target.
  Hypothesis Ht : good_target t.
  Notation P := (t_page t).
  Let HP : 0 < P.
  Proof. exact (pow2_pos _ (proj1 (proj2 Ht))). Qed.

  Lemma mach_ringed s s' pg n : wf (mc_w s) -> mach_allocated t s s' pg n ->
    ringed t (mc_w s') pg n (w_next (mc_w s) + 1) (fun _ => 0).
  Proof.
    intros Hw [Hn A1 A2 A3 Fr V A4 A5 _]. split.
    - exact Hn.
    - exact A1.
    - intros k Hk. rewrite V. unfold two_views. destruct (Z.lt_ge_cases k n).
      + rewrite in_pages_yes by lia. eexists. split; [reflexivity|]. cbn. rewrite Z.mod_small by lia. split; [reflexivity|]. split; [lia|]. auto.
      + rewrite in_pages_no by lia. rewrite in_pages_yes by lia. eexists. split; [reflexivity|]. cbn.
        split; [reflexivity|]. split; [|auto]. rewrite <- (Z.mod_add k (-1) n), Z.mod_small by lia. lia.
    - intros p e. rewrite V. unfold two_views.
      destruct (in_pages_cases (pg / P) n p) as [[-> Ip]|[-> Ip]]; [intros; lia|].
      destruct (in_pages_cases (pg / P + n) n p) as [[-> Iq]|[-> Iq]]; [intros; lia|].
      intros He Ho. apply (wf_vm _ Hw) in He. lia.
    - lia.
    - intros i _. apply A5.
  Qed.

  Lemma mach_pages s s' pg n p : mach_allocated t s s' pg n ->
    if (pg <=? P * p) && (P * p <? pg + 2 * (P * n))
    then w_vm (mc_w s) p = None /\ w_vm (mc_w s') p <> None else w_vm (mc_w s') p = w_vm (mc_w s) p.
  Proof.
    intros [Hn A1 A2 A3 Fr V A4 A5 _]. pose proof (page_in t Ht pg n (P * p) Hn A1) as I.
    rewrite (Z.mul_comm P p), Z.div_mul, (Z.mul_comm p) in I by lia.
    destruct ((pg <=? P * p) && (P * p <? pg + 2 * (P * n))) eqn:E.
    - apply andb_prop in E as [E1 E2]. apply Z.leb_le in E1. apply Z.ltb_lt in E2.
      assert (J : pg / P <= p < pg / P + 2 * n) by (apply I; lia). split; [apply Fr, J|].
      rewrite V. unfold two_views. destruct (in_pages_cases (pg / P) n p) as [[-> _]|[-> K]]; [discriminate|].
      rewrite in_pages_yes by lia. discriminate.
    - assert (J : ~ (pg / P <= p < pg / P + 2 * n)).
      { intros J. apply I in J. apply andb_false_iff in E. rewrite Z.leb_gt, Z.ltb_ge in E. lia. }
      rewrite V. unfold two_views. rewrite !in_pages_no by lia. reflexivity.
  Qed.

  Lemma mach_port s s' pg n : mach_allocated t s s' pg n -> one_port_more s s'.
  Proof.
    intros [_ _ _ _ _ _ _ _ (port & N & E)]. exists port. split; [exact N|]. rewrite E.
    split; [rewrite put_same; discriminate|]. intros q Hq. apply put_other, Hq.
  Qed.

  Lemma page_multiple len : (P | len) -> exists n, len = P * n.
  Proof. intros (n & ->). exists n. lia. Qed.

  Lemma mach_unmap_spec pg n s r s' : 0 < P * n < 2 ^ (t_bits t - 1) -> pg mod P = 0 ->
    mach_unmap_ring t pg (P * n) s = (r, s') ->
    mc_ports s' = mc_ports s /\
    w_obj (mc_w s') = w_obj (mc_w s) /\ w_next (mc_w s') = w_next (mc_w s) /\
    w_fd (mc_w s') = w_fd (mc_w s) /\ w_fs (mc_w s') = w_fs (mc_w s) /\
    match r with
    | Ret _ => forall p, w_vm (mc_w s') p = if in_pages (pg / P) (2 * n) p then None else w_vm (mc_w s) p
    | Err e => (exists c, e = error_kernel RingDeallocate c) /\ w_vm (mc_w s') = w_vm (mc_w s) /\ refused_last (mc_w s) (mc_w s')
    | _ => False
    end.
  Proof.
    intros Hl Ha H. unfold mach_unmap_ring, mbind in H. cbn [mout] in H. pose proof (bits_half t Ht) as [HB _].
    assert (EM : umul (E:=error) t 2 (P * n) = Ret (P * (2 * n))).
    { unfold umul. rewrite wrap_in by lia. f_equal. lia. }
    rewrite EM in H. cbn beta iota in H. apply kern_run in H.
    assert (D : forall r, on_world (vm_deallocate t pg (P * (2 * n))) s = (r, s') -> mc_ports s' = mc_ports s /\
      w_obj (mc_w s') = w_obj (mc_w s) /\ w_next (mc_w s') = w_next (mc_w s) /\
      w_fd (mc_w s') = w_fd (mc_w s) /\ w_fs (mc_w s') = w_fs (mc_w s) /\
      match r with
      | Ret _ => forall p, w_vm (mc_w s') p = if in_pages (pg / P) (2 * n) p then None else w_vm (mc_w s) p
      | Err _ => quiet (mc_w s) (mc_w s') /\ refused_last (mc_w s) (mc_w s')
      | _ => False
      end).
    { intros r1 E. apply world_run in E as [E EP]. split; [exact EP|].
      apply (dealloc_spec t Ht (mc_w s)) in E; [|exact Ha|apply consumed_refl]. apply E. }
    destruct r as [[]|e| | |].
    - exact (D _ H).
    - destruct H as (c & H & ->). destruct (D _ H) as (D1 & D2 & D3 & D4 & D5 & [[V _ _ _ _] R]).
      do 5 (split; [assumption|]). split; [eauto|]. auto.
    - destruct (D _ H) as (_ & _ & _ & _ & _ & []).
    - destruct (D _ H) as (_ & _ & _ & _ & _ & []).
    - destruct (D _ H) as (_ & _ & _ & _ & _ & []).
  Qed.

  (** ** Create and drop *)
  Lemma mach_new_inv hint s a s' : is_usize t hint -> mach_ring_new t hint s = (Ret a, s') ->
    is_usize t (ra_len a) /\ (0 < ra_len a -> is_ceil (t_alloc t) hint (ra_len a)) /\
    size_round (E:=error) t (size_alloc t) hint = Ret (ra_len a) /\
    mach_map_ring t (ra_len a) s = (Ret (ra_ptr a), s').
  Proof.
    intros Hh H. unfold mach_ring_new, mbind in H. cbn [mout] in H. pose proof (round_cases t Ht hint Hh) as R.
    destruct (size_round t (size_alloc t) hint) as [len|e| | |]; try contradiction; try discriminate H.
    destruct (mach_map_ring t len s) as [[pg|e| | |] s1] eqn:E; try discriminate H.
    injection H as <- <-. cbn. destruct R as [R1 R2]. auto.
  Qed.

  Lemma ceil_page hint len : is_ceil (t_alloc t) hint len -> (P | len).
  Proof.
    intros [D _]. pose proof Ht as (_ & Hp & Ha & Hle & _). apply Z.divide_trans with (t_alloc t); [|exact D].
    exact (pow2_divide _ _ Hp Ha Hle).
  Qed.

  Lemma checked_half len s s' pg : t_checks t = true -> 0 <= len -> mach_map_ring t len s = (Ret pg, s') -> len < 2 ^ (t_bits t - 1).
  Proof.
    intros Hc H0 H. unfold mach_map_ring, mbind in H. cbn [mout] in H. pose proof (bits_half t Ht) as [HB _].
    destruct (Z.lt_ge_cases len (2 ^ (t_bits t - 1))) as [|G]; [assumption|]. exfalso.
    unfold umul, wrap in H. rewrite Hc, (proj2 (Z.ltb_ge (2 * len) _)), andb_false_r in H by lia. discriminate H.
  Qed.

  Lemma mach_new_spec hint s a s' : is_usize t hint -> t_checks t = true \/ hint <= 2 ^ (t_bits t - 1) - t_alloc t ->
    mach_ring_new t hint s = (Ret a, s') -> exists n, ra_len a = P * n /\ is_ceil (t_alloc t) hint (P * n) /\
      mach_allocated t s s' (ra_ptr a) n.
  Proof.
    intros Hh Hs H. destruct (mach_new_inv _ _ _ _ Hh H) as (Hl & Hc & Er & E).
    assert (Hb : ra_len a < 2 ^ (t_bits t - 1)).
    { destruct Hs as [Hs|Hs]; [exact (checked_half _ _ _ _ Hs (proj1 Hl) E)|].
      destruct (Z.eq_dec (ra_len a) 0) as [->|N]; [pose proof (bits_half t Ht); lia|].
      destruct (Hc ltac:(unfold is_usize in Hl; lia)) as (D & L & M).
      pose proof Ht as (_ & _ & Ha & _). pose proof (pow2_pos _ Ha) as Ha0.
      set (c := rup (t_alloc t) hint). pose proof (rup_spec (t_alloc t) hint Ha0) as [R1 R2]. fold c in R1, R2.
      pose proof (M c R1 ltac:(lia)). lia. }
    assert (Hd : (P | ra_len a)).
    { destruct (Z.eq_dec (ra_len a) 0) as [->|N]; [apply Z.divide_0_r|]. apply (ceil_page hint), Hc. unfold is_usize in Hl. lia. }
    destruct (page_multiple _ Hd) as (n & En). rewrite En in E. exists n. split; [exact En|].
    apply mach_map_ring_spec in E as (_ & _ & A); [|exact Ht|unfold is_usize in Hl; lia].
    split; [|exact A]. rewrite <- En. apply Hc. pose proof (ma_n _ _ _ _ _ A). nia.
  Qed.

  Lemma mach_bound s s' pg n : mach_allocated t s s' pg n -> 0 < P * n < 2 ^ (t_bits t - 1).
  Proof. intros [Hn A1 A2 A3 _ _ _ _ _]. pose proof (bits_half t Ht). nia. Qed.

  Lemma mach_drop_spec s0 a n s r s' s1 : ra_len a = P * n -> mach_allocated t s0 s1 (ra_ptr a) n ->
    mach_ring_drop t a s = (r, s') ->
    r = Ret tt /\ mc_ports s' = mc_ports s /\ w_obj (mc_w s') = w_obj (mc_w s) /\ w_next (mc_w s') = w_next (mc_w s) /\
    w_fd (mc_w s') = w_fd (mc_w s) /\ w_fs (mc_w s') = w_fs (mc_w s) /\
    ((forall p, w_vm (mc_w s') p = if in_pages (ra_ptr a / P) (2 * n) p then None else w_vm (mc_w s) p) \/
     (w_vm (mc_w s') = w_vm (mc_w s) /\ refused_last (mc_w s) (mc_w s'))).
  Proof.
    intros En A H. unfold mach_ring_drop in H. rewrite En in H.
    destruct (mach_unmap_ring t (ra_ptr a) (P * n) s) as [r1 s2] eqn:E.
    apply mach_unmap_spec in E as (E1 & E2 & E3 & E4 & E5 & E6); [|exact (mach_bound _ _ _ _ A)|exact (ma_align _ _ _ _ _ A)].
    destruct r1 as [[]|e| | |]; try contradiction; injection H as <- <-; (split; [reflexivity|]); do 5 (split; [assumption|]).
    - left. exact E6.
    - right. destruct E6 as (_ & V & R). auto.
  Qed.

  Lemma mach_life hint l s a s1 : wf (mc_w s) -> is_usize t hint -> t_checks t = true \/ hint <= 2 ^ (t_bits t - 1) - t_alloc t ->
    mach_ring_new t hint s = (Ret a, s1) -> Forall (fun x => 0 <= fst x < 2 * ra_len a) l ->
    let '(r2, w2) := put_all t (ra_ptr a) l (mc_w s1) in
    let '(r3, s3) := mach_ring_drop t a {| mc_w := w2; mc_ports := mc_ports s1 |} in
    r2 = Ret tt /\ r3 = Ret tt /\ (forall fd, w_fd (mc_w s3) fd = w_fd (mc_w s) fd) /\
    (forall o, o < w_next (mc_w s) -> w_obj (mc_w s3) o = w_obj (mc_w s) o) /\ one_port_more s s3 /\
    ((forall p, w_vm (mc_w s3) p = w_vm (mc_w s) p) \/ (refused_last w2 (mc_w s3) /\ w_vm (mc_w s3) = w_vm (mc_w s1))).
  Proof.
    intros Hw Hh Hs H F. destruct (mach_new_inv _ _ _ _ Hh H) as (_ & _ & _ & E0).
    destruct (mach_new_spec _ _ _ _ Hh Hs H) as (n & En & _ & A). rewrite En in F, E0.
    pose proof (mach_bound _ _ _ _ A) as Hb.
    apply mach_map_ring_spec in E0 as (_ & (K1 & K2 & K3 & K4) & _); [|exact Ht|lia].
    destruct (put_all_spec t Ht (ra_ptr a) n _ l (mc_w s1) _ (mach_ringed _ _ _ _ Hw A) F) as (w2 & E2 & V2 & N2 & F2 & S2 & Q2 & O2).
    rewrite E2. destruct (mach_ring_drop t a {| mc_w := w2; mc_ports := mc_ports s1 |}) as [r3 s3] eqn:E3.
    destruct (mach_drop_spec s a n _ _ _ _ En A E3) as (-> & P3 & O3 & N3 & F3 & S3 & D). cbn [mc_w mc_ports] in *.
    split; [reflexivity|]. split; [reflexivity|]. split; [intros fd; rewrite F3, F2, K1; reflexivity|].
    split. { intros o Ho. rewrite O3, O2 by lia. apply K4, Ho. }
    split. { pose proof (mach_port _ _ _ _ A) as PM. unfold one_port_more in *. rewrite P3. exact PM. }
    destruct D as [D|[D1 D2]].
    - left. intros p. rewrite D, V2, (ma_vm _ _ _ _ _ A). unfold two_views.
      destruct (in_pages_cases (ra_ptr a / P) (2 * n) p) as [[-> I]|[-> I]]; [symmetry; apply (ma_free _ _ _ _ _ A), I|].
      rewrite !in_pages_no by lia. reflexivity.
    - right. split; [exact D2|]. congruence.
  Qed.

  Lemma cycles_leak hints : forall s s', (forall h, In h hints -> is_usize t h /\ (t_checks t = true \/ h <= 2 ^ (t_bits t - 1) - t_alloc t)) ->
    cycles t hints s = (Ret tt, s') -> ports_more (length hints) s s'.
  Proof.
    induction hints as [|h hints IH]; intros s s' Hh H; cbn [cycles] in H.
    - injection H as <-. exists []. split; [constructor|]. split; [reflexivity|]. split; [intros q []|reflexivity].
    - unfold mbind in H. destruct (Hh h (or_introl eq_refl)) as [Hu Hs].
      destruct (mach_ring_new t h s) as [[a|e| | |] s1] eqn:E1; try discriminate H.
      destruct (mach_ring_drop t a s1) as [r2 s2] eqn:E2. destruct (mach_new_spec _ _ _ _ Hu Hs E1) as (n & En & _ & A).
      destruct (mach_drop_spec s a n _ _ _ _ En A E2) as (-> & P2 & _).
      apply IH in H; [|intros; apply Hh; right; assumption]. destruct H as (l & N & L & I & O).
      destruct (mach_port _ _ _ _ A) as (port & Q1 & Q2 & Q3).
      assert (NI : ~ In port l). { intros J. apply I in J as [J _]. rewrite P2 in J. contradiction. }
      exists (port :: l). split; [constructor; assumption|]. split; [cbn; congruence|]. split.
      + intros q [<-|J].
        * split; [exact Q1|]. rewrite O by exact NI. rewrite P2. exact Q2.
        * destruct (I q J) as [I1 I2]. split; [|exact I2]. rewrite P2, Q3 in I1; [exact I1|]. intros ->. contradiction.
      + intros q J. rewrite O by (intros K; apply J; right; exact K). rewrite P2. apply Q3. intros ->. apply J. left. reflexivity.
  Qed.

  (** ** Which call fails *)
  Section Stages.
    Variables (n pg x port y : Z) (s : mach).
    Hypothesis Hl : 0 < P * n < 2 ^ (t_bits t - 1).
    Hypothesis Hpg : P <= pg /\ pg mod P = 0 /\ pg + 2 * (P * n) <= 2 ^ t_bits t - P.
    Hypothesis Hfree : forall p, pg / P <= p < pg / P + 2 * n -> w_vm (mc_w s) p = None.
    Hypothesis Hport : mc_ports s port = None.

    Lemma bind_ret {E A B} (m : MT E A) (k : A -> MT E B) s0 a s1 : m s0 = (Ret a, s1) -> mbind m k s0 = k a s1.
    Proof. intros E0. unfold mbind. rewrite E0. reflexivity. Qed.
    Lemma bind_err {E A B} (m : MT E A) (k : A -> MT E B) s0 e s1 : m s0 = (Err e, s1) -> mbind m k s0 = (Err e, s1).
    Proof. intros E0. unfold mbind. rewrite E0. reflexivity. Qed.
    Lemma kern_ret {A} op (m : MT Z A) s0 a s1 : m s0 = (Ret a, s1) -> kern_call op m s0 = (Ret a, s1).
    Proof. intros E0. unfold kern_call. rewrite E0. reflexivity. Qed.
    Lemma kern_err {A} op (m : MT Z A) s0 c s1 : m s0 = (Err c, s1) -> kern_call op m s0 = (Err (error_kernel op c), s1).
    Proof. intros E0. unfold kern_call. rewrite E0. reflexivity. Qed.
    Lemma clean_ret {A} addr len (m : MT error A) s0 a s1 : m s0 = (Ret a, s1) -> or_cleanup t addr len m s0 = (Ret a, s1).
    Proof. intros E0. unfold or_cleanup. rewrite E0. reflexivity. Qed.
    Lemma clean_err {A} addr (m : MT error A) s0 e s1 : m s0 = (Err e, s1) ->
      or_cleanup t addr (P * n) m s0 = (Err e, snd (on_world (vm_deallocate t addr (P * (2 * n))) s1)).
    Proof.
      intros E0. unfold or_cleanup. rewrite E0. pose proof (bits_half t Ht) as [HB _].
      assert (EM : umul (E:=error) t 2 (P * n) = Ret (P * (2 * n))) by (unfold umul; rewrite wrap_in by lia; f_equal; lia).
      rewrite EM. reflexivity.
    Qed.
    Lemma ask_refused {A} (k : Z -> ST Z A) w c q : w_orc w = Refuse c :: q -> ask k w = (Err c, set_orc w q).
    Proof. intros E. unfold ask. rewrite E. reflexivity. Qed.
    Lemma ask_granted {A} (k : Z -> ST Z A) w a q : w_orc w = Grant a :: q -> ask k w = k a (set_orc w q).
    Proof. intros E. unfold ask. rewrite E. reflexivity. Qed.
    Lemma on_world_eq {E A} (m : ST E A) s0 r w : m (mc_w s0) = (r, w) -> on_world m s0 = (r, {| mc_w := w; mc_ports := mc_ports s0 |}).
    Proof. intros E0. unfold on_world. rewrite E0. reflexivity. Qed.

    Lemma range_full k : 0 < k <= 2 * n -> range_ok t pg (P * k) = true.
    Proof. intros Hk. apply range_ok_iff. rewrite (npages_mul t HP). destruct Hpg as (A & B & C). repeat split; try assumption. nia. Qed.
    Lemma range_half : range_ok t (pg + P * n) (P * n) = true.
    Proof.
      apply range_ok_iff. rewrite (npages_mul t HP). destruct Hpg as (A & B & C). split; [nia|]. split; [|nia].
      rewrite Z.mul_comm, Z.mod_add by lia. exact B.
    Qed.

    Lemma mach_stages k T : (k <= 4)%nat -> w_orc (mc_w s) = firstn k (mach_grants pg x port y) ++ T ->
      (k = 4%nat -> exists s', mach_map_ring t (P * n) s = (Ret pg, s')) /\
      ((k < 4)%nat -> forall c q, T = Refuse c :: q ->
       exists s', mach_map_ring t (P * n) s = (Err (error_kernel (mach_stage k) c), s') /\
        ((0 < k)%nat -> forall z q', q = Grant z :: q' -> w_orc (mc_w s') = q')).
    Proof.
      intros Hk Hq. assert (n0 : 0 < n) by nia. pose proof (bits_half t Ht) as [HB _].
      assert (EM : mout (umul (E:=error) t 2 (P * n)) s = (Ret (P * (2 * n)), s)).
      { unfold mout, umul. rewrite wrap_in by lia. f_equal. f_equal. lia. }
      unfold mach_map_ring. rewrite (bind_ret _ _ _ _ _ EM).
      assert (Dn : forall addr s1 z q', w_orc (mc_w s1) = Grant z :: q' ->
        w_orc (mc_w (snd (on_world (vm_deallocate t addr (P * (2 * n))) s1))) = q').
      { intros addr s1 z q' E. unfold on_world, vm_deallocate. rewrite (ask_granted _ _ _ _ E). destruct (P * (2 * n) =? 0); reflexivity. }
      destruct k as [|k]; [cbn [firstn app] in Hq|].
      { split; [discriminate|]. intros _ c q ->.
        eexists. split; [apply bind_err, kern_err, on_world_eq; unfold vm_allocate_anywhere; apply ask_refused, Hq|lia]. }
      cbn [firstn app mach_grants] in Hq.
      destruct (vm_allocate_anywhere t (P * (2 * n)) (mc_w s)) as [r1 w1] eqn:E1.
      assert (G1 : r1 = Ret pg /\ w_orc w1 = firstn k [Grant x; Grant port; Grant y] ++ T).
      { unfold vm_allocate_anywhere in E1. rewrite (ask_granted _ _ _ _ Hq), (proj2 (Z.eqb_neq (P * (2 * n)) 0)) in E1 by nia.
        rewrite range_full in E1 by lia. rewrite (npages_mul t HP) in E1.
        rewrite (proj2 (free_range_iff _ _ _)) in E1 by exact Hfree. cbn [negb orb] in E1.
        injection E1 as <- <-. auto. }
      destruct G1 as [-> O1]. rewrite (bind_ret _ _ _ _ _ (kern_ret _ _ _ _ _ (on_world_eq _ _ _ _ E1))).
      set (s1 := {| mc_w := w1; mc_ports := mc_ports s |}).
      destruct k as [|k]; [cbn [firstn app] in O1|].
      { split; [discriminate|]. intros _ c q ->. eexists. split.
        - apply bind_err, clean_err, kern_err, on_world_eq. unfold vm_allocate_fixed. apply ask_refused, O1.
        - intros _ z q' ->. apply (Dn _ _ z). reflexivity. }
      cbn [firstn app] in O1.
      destruct (vm_allocate_fixed t pg (P * n) w1) as [r2 w2] eqn:E2. pose proof E2 as E2s. apply fixed_spec in E2s as [_ E2s].
      assert (G2 : r2 = Ret pg /\ w_orc w2 = firstn k [Grant port; Grant y] ++ T).
      { unfold vm_allocate_fixed in E2. rewrite (ask_granted _ _ _ _ O1), (proj2 (Z.eqb_neq (P * n) 0)) in E2 by nia.
        rewrite range_full in E2 by lia. cbn [negb] in E2. injection E2 as <- <-. auto. }
      destruct G2 as [-> O2]. rewrite (bind_ret _ _ _ _ _ (clean_ret _ _ _ _ _ _ (kern_ret _ _ _ _ _ (on_world_eq _ s1 _ _ E2)))).
      set (s2 := {| mc_w := w2; mc_ports := mc_ports s1 |}).
      destruct E2s as [(Z0 & _)|(_ & _ & _ & [V2 _ _ _ _])]; [nia|]. rewrite (npages_mul t HP) in V2.
      destruct k as [|k]; [cbn [firstn app] in O2|].
      { split; [discriminate|]. intros _ c q ->. eexists. split.
        - apply bind_err, clean_err, kern_err. unfold make_memory_entry. cbn [mc_w]. rewrite (ask_refused _ w2 _ _ O2). reflexivity.
        - intros _ z q' ->. apply (Dn _ _ z). reflexivity. }
      cbn [firstn app] in O2.
      assert (E3 : exists s3, make_memory_entry t (P * n) pg s2 = (Ret (P * n, port), s3) /\
        w_orc (mc_w s3) = firstn k [Grant y] ++ T /\ exists o i, mc_ports s3 port = Some {| me_obj := o; me_idx := i; me_pages := n |}).
      { unfold make_memory_entry. cbn [mc_w mc_ports s2 s1]. rewrite (ask_granted _ w2 _ _ O2), Hport.
        rewrite (proj2 (Z.eqb_neq (P * n) 0)) by nia. rewrite (npages_mul t HP).
        assert (EO : one_object (set_orc w2 (firstn k [Grant y] ++ T)) (pg / P) n = Some (w_next w1, 0)).
        { unfold one_object. cbn [w_vm set_orc]. rewrite V2, in_pages_yes by lia. rewrite (proj2 (forallb_forall _ _)).
          - cbn. f_equal. f_equal. lia.
          - intros p Hp. apply page_seq_In in Hp. rewrite V2, in_pages_yes by lia. cbn. rewrite Z.eqb_refl.
            rewrite (proj2 (Z.eqb_eq (p - pg / P) _)) by lia. reflexivity. }
        rewrite EO. eexists. split; [reflexivity|]. split; [reflexivity|]. cbn. exists (w_next w1), 0. apply put_same. }
      destruct E3 as (s3 & E3 & O3 & o & i & P3).
      rewrite (bind_ret _ _ _ _ _ (clean_ret _ _ _ _ _ _ (kern_ret _ _ _ _ _ E3))). cbn beta iota.
      assert (EA : mout (uadd (E:=error) t pg (P * n)) s3 = (Ret (pg + P * n), s3)).
      { unfold mout, uadd. rewrite wrap_in by lia. reflexivity. }
      rewrite (bind_ret _ _ _ _ _ EA).
      destruct k as [|k]; [cbn [firstn app] in O3|].
      { split; [discriminate|]. intros _ c q ->. eexists. split.
        - apply bind_err, clean_err, kern_err. unfold vm_map_fixed. apply on_world_eq. apply ask_refused, O3.
        - intros _ z q' ->. apply (Dn _ _ z). reflexivity. }
      destruct k as [|k]; [|lia]. cbn [firstn app] in O3. split; [|lia]. intros _.
      assert (E4 : exists s4, vm_map_fixed t (pg + P * n) (P * n) port s3 = (Ret (pg + P * n), s4)).
      { unfold vm_map_fixed, on_world. rewrite (ask_granted _ _ _ _ O3), P3, range_half, (npages_mul t HP). cbn [me_pages negb orb].
        rewrite Z.ltb_irrefl. eexists. reflexivity. }
      destruct E4 as (s4 & E4). exists s4. rewrite (bind_ret _ _ _ _ _ (clean_ret _ _ _ _ _ _ (kern_ret _ _ _ _ _ E4))). reflexivity.
    Qed.

    Lemma mach_restored k c z u q : (k < 4)%nat ->
      w_orc (mc_w s) = firstn k (mach_grants pg x port y) ++ Refuse c :: Grant z :: u :: q ->
      let '(r, s') := mach_map_ring t (P * n) s in
      r = Err (error_kernel (mach_stage k) c) /\ untouched (mc_w s) (mc_w s') /\
      (if (k =? 3)%nat then one_port_more s s' else same_ports s s').
    Proof.
      intros Hk Hq. destruct (mach_stages k _ ltac:(lia) Hq) as [_ M].
      destruct (M Hk c _ eq_refl) as (s' & E & Q). rewrite E. split; [reflexivity|].
      apply mach_map_ring_spec in E as (_ & (K1 & K2 & K3 & K4) & k' & (Hk' & c' & Ee) & V & Pt); [|exact Ht|lia].
      assert (Ek : k' = k).
      { assert (EO : mach_stage k = mach_stage k') by (injection Ee; auto).
        destruct k as [|[|[|[|k]]]]; try lia; destruct k' as [|[|[|[|k']]]]; try lia; try reflexivity; discriminate EO. }
      subst k'. split; [|exact Pt]. destruct V as [V|(K0 & R & _)].
      - split; [exact V|intros fd; rewrite K1; reflexivity|exact K4].
      - exfalso. specialize (Q K0 z _ eq_refl). destruct R as [R|(q0 & e & R)]; [rewrite R in Q; discriminate|].
        rewrite Hq, Q in R.
        assert (RR : (firstn k (mach_grants pg x port y) ++ [Refuse c]) ++ [Grant z] = q0 ++ [Refuse e]).
        { apply (app_inv_tail (u :: q)). rewrite <- !app_assoc. exact R. }
        apply app_inj_tail in RR as [_ RR]. discriminate.
    Qed.
  End Stages.
End Claims.
