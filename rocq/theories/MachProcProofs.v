(** Proofs about programs with maps and rings on macOS and iOS: the invariants
    of ProcProofs.v hold there too. *)
From Coq Require Import Lia.
From Verif Require Import Base Spec ErrorModel RingSpec RingModel SizeModel SizeProofs OsModel MapModel MapSpec OsProofs MapProofs MapCreate MapOps
  ApiModel ApiSpec ApiProofs RingMapModel RingMapSpec MirrorProofs RingMapClaims MemRingModel MemRingProofs ProcModel ProcSpec ProcFrame ProcProofs
  MachModel MachSpec MachProofs MachClaims MachProcModel MachProcSpec.

(** What any step of an allocation does: old memory is not touched, and pages
    that appear show new memory. *)
Record grown (w w' : world) : Prop := {
  gw_next : w_next w <= w_next w';
  gw_fd : w_fd w' = w_fd w;
  gw_fs : w_fs w' = w_fs w;
  gw_obj : forall o, o < w_next w -> w_obj w' o = w_obj w o;
  gw_size : (forall o, 0 <= o_size (w_obj w o) < 2 ^ 64) -> forall o, 0 <= o_size (w_obj w' o) < 2 ^ 64;
  gw_vm : forall p e, w_vm w' p = Some e -> w_vm w p = Some e \/ w_next w <= p_obj e < w_next w'
}.

Lemma grown_refl w : grown w w.
Proof. split; auto; lia. Qed.
Lemma grown_trans w1 w2 w3 : grown w1 w2 -> grown w2 w3 -> grown w1 w3.
Proof.
  intros [A1 A2 A3 A4 A5 A6] [B1 B2 B3 B4 B5 B6]. split.
  - lia.
  - congruence.
  - congruence.
  - intros o Ho. rewrite B4 by lia. apply A4, Ho.
  - auto.
  - intros p e H. destruct (B6 p e H) as [H2|H2]; [|lia]. destruct (A6 p e H2) as [H3|H3]; [auto|lia].
Qed.
Lemma grown_quiet w w' : quiet w w' -> grown w w'.
Proof. intros [V O N F S]. split; rewrite ?V, ?O, ?N, ?F, ?S; auto. lia. Qed.
Lemma grown_wf w w' : grown w w' -> wf w -> wf w'.
Proof.
  intros [A1 A2 A3 A4 A5 A6] [W1 W2 W3 W4]. split.
  - intros p e H. destruct (A6 p e H) as [H2|H2]; [apply W1 in H2; lia|lia].
  - intros fd f. rewrite A2. intros H. apply W2 in H. lia.
  - intros path o. rewrite A3. intros H. apply W3 in H. lia.
  - auto.
Qed.
Lemma grown_safe w w' o : grown w w' -> safe o w w'.
Proof.
  intros [A1 A2 A3 A4 A5 A6] [P1 P2 P3]. split.
  - split; [lia|rewrite A2; exact P2|rewrite A3; exact P3].
  - rewrite A4 by exact P1. reflexivity.
  - rewrite A4 by exact P1. reflexivity.
  - intros p e H Ho. destruct (A6 p e H) as [H2|H2]; [eauto|lia].
Qed.

Section MachNew.
  Variable t : target.
  Hypothesis Ht : good_target t.
  Notation P := (t_page t).
  Let HP : 0 < P.
  Proof. exact (pow2_pos _ (proj1 (proj2 Ht))). Qed.
  Let HB : 32 <= t_bits t <= 64.
  Proof. destruct Ht as [[E|E] _]; lia. Qed.

  Lemma new_memory_grown w w' first n : 0 <= P * n < 2 ^ t_bits t -> new_memory t w w' first n -> grown w w'.
  Proof.
    intros Hn [V O N F S]. split; try assumption.
    - lia.
    - intros o Ho. rewrite O. apply put_other. lia.
    - intros H o. rewrite O. unfold put. destruct (o =? w_next w); [|apply H]. cbn [o_size].
      pose proof (Z.pow_le_mono_r 2 (t_bits t) 64). lia.
    - intros p e. rewrite V. destruct (in_pages first n p); [|auto]. intros [= <-]. right. cbn. lia.
  Qed.
  Lemma range_size a size : range_ok t a size = true -> size <> 0 -> 0 <= P * npages t size < 2 ^ t_bits t \/ npages t size <= 0.
  Proof. intros R _. apply range_ok_iff in R as (R1 & R2 & R3). nia. Qed.

  Lemma anywhere_grown size w : 0 <= size -> grown w (snd (vm_allocate_anywhere t size w)).
  Proof.
    intros H0. destruct (vm_allocate_anywhere t size w) as [r w'] eqn:E. apply anywhere_spec in E as [_ E]. cbn [snd].
    destruct r as [a|e| | |]; try contradiction E; [|apply grown_quiet, E].
    destruct E as [(_ & _ & Q)|(N & R & _ & NM)]; [apply grown_quiet, Q|]. refine (new_memory_grown _ _ _ _ _ NM).
    pose proof (npages_bounds t HP size). destruct (range_size _ _ R N); nia.
  Qed.
  Lemma fixed_grown addr size w r w' : 0 <= size -> vm_allocate_fixed t addr size w = (r, w') -> grown w w' /\
    forall a, r = Ret a -> size <> 0 -> exists e, w_vm w' (addr / P) = Some e /\ w_next w <= p_obj e < w_next w' /\ a = addr.
  Proof.
    intros H0 E. apply fixed_spec in E as [_ E].
    destruct r as [a|e| | |]; try contradiction E; [|split; [apply grown_quiet, E|discriminate]].
    destruct E as [(Z0 & _ & Q)|(N & -> & R & NM)]; [split; [apply grown_quiet, Q|]; intros a0 _ N; contradiction|].
    pose proof (npages_bounds t HP size) as NB. assert (G : 0 <= P * npages t size < 2 ^ t_bits t) by (destruct (range_size _ _ R N); nia).
    split; [exact (new_memory_grown _ _ _ _ G NM)|]. intros a0 [= <-] _. destruct NM as [V _ N' _ _].
    rewrite V, in_pages_yes by nia. eexists. split; [reflexivity|]. cbn. split; [lia|reflexivity].
  Qed.
  Lemma dealloc_grown addr size w : grown w (snd (vm_deallocate t addr size w)).
  Proof.
    unfold vm_deallocate, ask. destruct (w_orc w) as [|[e|a] q]; cbn [snd].
    - apply grown_refl.
    - apply grown_quiet. split; reflexivity.
    - apply (grown_trans _ (set_orc w q)); [apply grown_quiet; split; reflexivity|]. destruct (size =? 0); [apply grown_refl|].
      split; cbn; auto; [lia|]. intros p e. destruct (in_pages _ _ p); [discriminate|auto].
  Qed.
  Lemma entry_grown size addr s r s' : make_memory_entry t size addr s = (r, s') -> grown (mc_w s) (mc_w s') /\
    forall x, r = Ret x -> size <> 0 /\ w_vm (mc_w s') = w_vm (mc_w s) /\ w_next (mc_w s') = w_next (mc_w s) /\ exists m e, mc_ports s' (snd x) = Some m /\
      w_vm (mc_w s) (addr / P) = Some e /\ me_obj m = p_obj e.
  Proof.
    unfold make_memory_entry, ask. intros H. destruct (w_orc (mc_w s)) as [|[c|a] q].
    - injection H as <- <-. cbn. split; [apply grown_refl|discriminate].
    - injection H as <- <-. cbn. split; [apply grown_quiet; split; reflexivity|discriminate].
    - assert (Q : grown (mc_w s) (set_orc (mc_w s) q)) by (apply grown_quiet; split; reflexivity).
      destruct (mc_ports s a) as [m|]; [injection H as <- <-; split; [exact Q|discriminate]|].
      destruct (Z.eqb_spec size 0) as [->|N]; [injection H as <- <-; split; [exact Q|discriminate]|].
      unfold one_object in H. destruct (w_vm (set_orc (mc_w s) q) (addr / P)) as [e|] eqn:Ee; [|injection H as <- <-; split; [exact Q|discriminate]].
      destruct (forallb _ _); injection H as <- <-; (split; [exact Q|]); [|discriminate].
      intros x [= <-]. split; [exact N|]. split; [reflexivity|]. split; [reflexivity|]. eexists. exists e. cbn [mc_ports snd]. rewrite put_same. split; [reflexivity|]. split; [exact Ee|reflexivity].
  Qed.
  Lemma map_fixed_grown addr size port w0 s m : grown w0 (mc_w s) -> mc_ports s port = Some m -> w_next w0 <= me_obj m < w_next (mc_w s) ->
    grown w0 (mc_w (snd (vm_map_fixed t addr size port s))).
  Proof.
    intros G Hm Hb. unfold vm_map_fixed, on_world, ask. destruct (w_orc (mc_w s)) as [|[c|a] q]; cbn [mc_w snd].
    - exact G.
    - apply (grown_trans _ _ _ G), grown_quiet. split; reflexivity.
    - rewrite Hm. destruct (_ || _); cbn [mc_w snd].
      + apply (grown_trans _ _ _ G), grown_quiet. split; reflexivity.
      + destruct G as [A1 A2 A3 A4 A5 A6]. split; cbn; auto. intros p e. destruct (in_pages _ _ p); [|apply A6].
        intros [= <-]. right. exact Hb.
  Qed.

  Lemma cleanup_grown {A} addr len (m : MT error A) w0 s : grown w0 (mc_w (snd (m s))) -> grown w0 (mc_w (snd (or_cleanup t addr len m s))).
  Proof.
    intros G. unfold or_cleanup. destruct (m s) as [[a|e| | |] s1]; cbn [snd] in *; try exact G.
    destruct (umul t 2 len) as [l|x| | |]; try exact G. apply (grown_trans _ _ _ G). cbn [snd]. unfold on_world.
    pose proof (dealloc_grown addr l (mc_w s1)) as D. destruct (vm_deallocate t addr l (mc_w s1)) as [r w]. exact D.
  Qed.
  Lemma kern_state {A} op (m : MT Z A) s : mc_w (snd (kern_call op m s)) = mc_w (snd (m s)).
  Proof. unfold kern_call. destruct (m s) as [[a|e| | |] s1]; reflexivity. Qed.

  (** Reading off the state after a [mbind] whose first part returned or not. *)
  Lemma bind_grown {E A B} (m : MT E A) (k : A -> MT E B) w0 s : grown w0 (mc_w (snd (m s))) ->
    (forall a s1, m s = (Ret a, s1) -> grown w0 (mc_w (snd (k a s1)))) -> grown w0 (mc_w (snd (mbind m k s))).
  Proof. intros G K. unfold mbind. destruct (m s) as [[a|e| | |] s1]; cbn [snd] in *; try exact G. exact (K a s1 eq_refl). Qed.
  Lemma cleanup_ret {A} addr len (m : MT error A) s a s1 : or_cleanup t addr len m s = (Ret a, s1) -> m s = (Ret a, s1).
  Proof. unfold or_cleanup. destruct (m s) as [[b|e| | |] s2]; try (intros H; exact H); try discriminate. destruct (umul t 2 len); discriminate. Qed.
  Lemma kern_ret' {A} op (m : MT Z A) s a s1 : kern_call op m s = (Ret a, s1) -> m s = (Ret a, s1).
  Proof. unfold kern_call. destruct (m s) as [[b|e| | |] s2]; try discriminate. intros [= <- <-]. reflexivity. Qed.

  Lemma map_ring_grown len s : 0 <= len -> grown (mc_w s) (mc_w (snd (mach_map_ring t len s))).
  Proof.
    intros Hl. unfold mach_map_ring. apply bind_grown; [apply grown_refl|]. intros full s1 E1. unfold mout in E1. injection E1 as E1 <-.
    assert (Hf : 0 <= full).
    { unfold umul, wrap in E1. destruct ((0 <=? 2 * len) && (2 * len <? 2 ^ t_bits t)); [assert (full = 2 * len) by congruence; lia|].
      destruct (t_checks t); [discriminate E1|]. injection E1 as <-. apply Z.mod_pos_bound, Z.pow_pos_nonneg; lia. }
    clear E1.
    apply bind_grown.
    { rewrite kern_state. unfold on_world. pose proof (anywhere_grown full (mc_w s) Hf) as G. destruct (vm_allocate_anywhere t full (mc_w s)). exact G. }
    intros addr s1 E1. apply kern_ret' in E1.
    assert (G1 : grown (mc_w s) (mc_w s1)).
    { apply world_run in E1 as [E1 _]. pose proof (anywhere_grown full (mc_w s) Hf) as G. rewrite E1 in G. exact G. }
    assert (F2 : forall r s2, on_world (vm_allocate_fixed t addr len) s1 = (r, s2) -> grown (mc_w s) (mc_w s2) /\
      forall a, r = Ret a -> len <> 0 -> exists e, w_vm (mc_w s2) (addr / P) = Some e /\ w_next (mc_w s) <= p_obj e < w_next (mc_w s2) /\ a = addr).
    { intros r s2 E. apply world_run in E as [E _]. apply fixed_grown in E as [G E]; [|exact Hl].
      split; [exact (grown_trans _ _ _ G1 G)|]. intros a Ea N. destruct (E a Ea N) as (e & X1 & X2 & X3).
      exists e. split; [exact X1|]. split; [|exact X3]. pose proof (gw_next _ _ G1). lia. }
    apply bind_grown.
    { apply cleanup_grown. rewrite kern_state. destruct (on_world (vm_allocate_fixed t addr len) s1) as [r s2] eqn:E. exact (proj1 (F2 _ _ eq_refl)). }
    intros addr2 s2 E2. apply cleanup_ret, kern_ret' in E2. destruct (F2 _ _ E2) as [G2 K2]. clear F2 E2.
    assert (F3 : forall r s3, make_memory_entry t len addr2 s2 = (r, s3) -> grown (mc_w s) (mc_w s3) /\
      forall x, r = Ret x -> exists m, mc_ports s3 (snd x) = Some m /\ w_next (mc_w s) <= me_obj m < w_next (mc_w s3)).
    { intros r s3 E. apply entry_grown in E as [G E]. split; [exact (grown_trans _ _ _ G2 G)|]. intros x Ex.
      destruct (E x Ex) as (N & _ & Nx & m & e & M1 & M2 & M3). exists m. split; [exact M1|].
      destruct (K2 addr2 eq_refl N) as (e2 & X1 & X2 & X3). rewrite <- X3 in X1. rewrite X1 in M2. injection M2 as <-. rewrite M3, Nx. exact X2. }
    apply bind_grown.
    { apply cleanup_grown. rewrite kern_state. destruct (make_memory_entry t len addr2 s2) as [r s3] eqn:E. exact (proj1 (F3 _ _ eq_refl)). }
    intros [len3 port] s3 E3. apply cleanup_ret, kern_ret' in E3. destruct (F3 _ _ E3) as [G3 K3]. destruct (K3 _ eq_refl) as (m & M1 & M2). clear F3 K3 E3.
    cbn [snd] in M1.
    apply bind_grown; [exact G3|]. intros half s4 E4. unfold mout in E4. injection E4 as _ <-.
    assert (F4 : grown (mc_w s) (mc_w (snd (vm_map_fixed t half len3 port s3)))) by exact (map_fixed_grown _ _ _ _ _ _ G3 M1 M2).
    apply bind_grown; [apply cleanup_grown; rewrite kern_state; exact F4|]. intros a s5 E5. apply cleanup_ret, kern_ret' in E5.
    rewrite E5 in F4. exact F4.
  Qed.

  (** The whole of [Ring::new]. *)
  Lemma mach_new_grown hint s : is_usize t hint -> grown (mc_w s) (mc_w (snd (mach_ring_new t hint s))).
  Proof.
    intros Hh. unfold mach_ring_new. apply bind_grown; [apply grown_refl|]. intros len s1 E. unfold mout in E. injection E as E <-.
    pose proof (round_cases t Ht hint Hh) as Rc. rewrite E in Rc. destruct Rc as [Rc _].
    apply bind_grown; [apply map_ring_grown, Rc|]. intros pg s1 E1. pose proof (map_ring_grown len s (proj1 Rc)) as G. rewrite E1 in G. exact G.
  Qed.

  Definition hint_ok (hint : Z) : Prop := is_usize t hint /\ (t_checks t = true \/ hint <= 2 ^ (t_bits t - 1) - t_alloc t).

  (** Every way it can end. *)
  Lemma mach_new_cases hint s r s' : hint_ok hint -> mach_ring_new t hint s = (r, s') ->
    match r with
    | Ret a => exists n, ra_len a = P * n /\ is_ceil (t_alloc t) hint (P * n) /\ mach_allocated t s s' (ra_ptr a) n
    | Err e => exists k len, mach_error k e /\
        ((forall p, w_vm (mc_w s') p = w_vm (mc_w s) p) \/
         ((0 < k)%nat /\ refused_last (mc_w s) (mc_w s') /\ left_mapped t (mc_w s) (mc_w s') len)) /\
        (if (k =? 3)%nat then one_port_more s s' else same_ports s s') /\ (len <> 0 -> is_ceil (t_alloc t) hint len)
    | Panic => s' = s
    | _ => False
    end.
  Proof.
    intros [Hh Hs] H. unfold mach_ring_new, mbind in H. cbn [mout] in H. pose proof (round_cases t Ht hint Hh) as Rc.
    destruct (size_round t (size_alloc t) hint) as [len|x| | |] eqn:Er; try contradiction; [|injection H as <- <-; reflexivity].
    destruct Rc as [Rl Rc]. pose proof (bits_half t Ht) as [B1 B2].
    assert (Hb : len < 2 ^ (t_bits t - 1) \/ (t_checks t = true /\ 2 ^ (t_bits t - 1) <= len)).
    { destruct Hs as [Hs|Hs]; [destruct (Z.lt_ge_cases len (2 ^ (t_bits t - 1))); auto|left].
      destruct (Z.eq_dec len 0) as [->|N]; [lia|].
      destruct (Rc ltac:(unfold is_usize in Rl; lia)) as (D & L & M).
      pose proof Ht as (_ & _ & Ha & _). pose proof (pow2_pos _ Ha) as Ha0.
      set (c := rup (t_alloc t) hint). pose proof (rup_spec (t_alloc t) hint Ha0) as [R1 R2]. fold c in R1, R2.
      pose proof (M c R1 ltac:(lia)). lia. }
    destruct Hb as [Hb|[Hc Hb]].
    - assert (Hd : (P | len)).
      { destruct (Z.eq_dec len 0) as [->|N]; [apply Z.divide_0_r|]. apply (ceil_page t Ht hint), Rc. unfold is_usize in Rl. lia. }
      destruct (page_multiple t _ Hd) as (n & En). rewrite En in H.
      destruct (mach_map_ring t (P * n) s) as [r1 s1] eqn:Em. pose proof Em as Em2.
      apply mach_map_ring_spec in Em as (_ & _ & A); [|exact Ht|unfold is_usize in Rl; lia].
      destruct r1 as [pg|x| | |]; try contradiction A; injection H as <- <-.
      + cbn [ra_len ra_ptr]. exists n. split; [reflexivity|]. split; [|exact A]. rewrite <- En. apply Rc. pose proof (ma_n _ _ _ _ _ A). nia.
      + destruct A as (k & A1 & A2 & A3). exists k, (P * n). do 3 (split; [assumption|]). intros Nz. rewrite <- En. apply Rc. unfold is_usize in Rl. lia.
    - assert (Em : mach_map_ring t len s = (Panic, s)).
      { unfold mach_map_ring, mbind. cbn [mout]. unfold umul, wrap. rewrite Hc, (proj2 (Z.ltb_ge (2 * len) _)), andb_false_r by lia. reflexivity. }
      rewrite Em in H. injection H as <- <-. reflexivity.
  Qed.
End MachNew.

Section MachProc.
  Variable t : target.
  Hypothesis Ht : posix_target t.
  Notation P := (t_page t).
  Let Hg : good_target t := proj1 Ht.
  Let HP : 0 < P.
  Proof. exact (pow2_pos _ (proj1 (proj2 Hg))). Qed.

  (** Old pages stay. *)
  Lemma mach_new_vm hint s r s' : hint_ok t hint -> mach_ring_new t hint s = (r, s') ->
    forall pg e, w_vm (mc_w s) pg = Some e -> w_vm (mc_w s') pg = Some e.
  Proof.
    intros Hh E pg e He. apply (mach_new_cases t Hg) in E; [|exact Hh]. destruct r as [a|x| | |]; try contradiction E.
    - destruct E as (n & _ & _ & [Hn _ _ _ Fr V _ _ _]). rewrite V. unfold two_views.
      destruct (in_pages_cases (ra_ptr a / P) n pg) as [[_ I]|[-> I]]; [rewrite Fr in He by lia; discriminate He|].
      destruct (in_pages_cases (ra_ptr a / P + n) n pg) as [[_ J]|[-> J]]; [rewrite Fr in He by lia; discriminate He|exact He].
    - destruct E as (k & len & _ & [V|(_ & _ & first & V1 & V2)] & _); [rewrite V; exact He|].
      rewrite V2; [exact He|]. intros I. rewrite (V1 pg I) in He. discriminate He.
    - subst s'. exact He.
  Qed.

  (** States between which rings and maps are kept. *)
  Definition keeps (w w' : world) : Prop := grown w w' /\ forall pg e, w_vm w pg = Some e -> w_vm w' pg = Some e.
  Lemma mach_new_keeps hint s r s' : hint_ok t hint -> mach_ring_new t hint s = (r, s') -> keeps (mc_w s) (mc_w s').
  Proof.
    intros Hh E. split; [|exact (mach_new_vm _ _ _ _ Hh E)]. pose proof (mach_new_grown t Hg hint s (proj1 Hh)) as G. rewrite E in G. exact G.
  Qed.
  Lemma kept_home w w' h n o m : keeps w w' -> at_home t w h n o m -> at_home t w' h n o m.
  Proof.
    intros [G V] H. apply (home_kept_eq t Ht _ _ _ _ _ _ H); [exact (grown_safe _ _ _ G)|].
    intros pg Hp. destruct (home_entry t Ht _ _ _ _ _ _ H Hp) as (e & He & _). rewrite He. exact (V _ _ He).
  Qed.
  Lemma kept_maps a w' : keeps (a_w a) w' -> api_ok t a -> api_ok t (set_w a w').
  Proof.
    intros [G V] A. apply api_same; [exact A|exact (grown_wf _ _ G (ok_wf _ _ A))|].
    intros k l pg Hl Ho. destruct (own_mapped_live t _ _ _ _ A Hl Ho) as (e & He). rewrite He. exact (V _ _ He).
  Qed.
  Lemma kept_pok p w' : keeps (pc_w p) w' -> pok t p -> pok t (pc_set_w p w').
  Proof.
    intros K [A C R RR RM]. split; cbn [pc_set_w pc_a pc_ring pc_cnt]; try assumption.
    - exact (kept_maps _ _ K A).
    - intros k h Hk. destruct (R k h Hk) as (F & n & o & m & H). split; [exact F|]. exists n, o, m. exact (kept_home _ _ _ _ _ _ K H).
  Qed.

  (** The new ring's own memory: zeros, nobody else's. *)
  Lemma mach_home hint s a s' h : wf (mc_w s) -> hint_ok t hint -> mach_ring_new t hint s = (Ret a, s') -> h_alloc h = a ->
    is_ceil (t_alloc t) hint (ra_len a) /\ 0 < ra_len a /\ 2 * ra_len a < 2 ^ t_bits t /\
    (forall pg, ring_page t h pg -> w_vm (mc_w s) pg = None) /\
    (forall pg, ~ ring_page t h pg -> w_vm (mc_w s') pg = w_vm (mc_w s) pg) /\
    exists n, at_home t (mc_w s') h n (w_next (mc_w s) + 1) (fun _ => 0).
  Proof.
    intros W Hh E Ea. destruct (mach_new_keeps _ _ _ _ Hh E) as [G _]. apply (mach_new_cases t Hg) in E; [|exact Hh]. destruct E as (n & Hl & IC & A).
    pose proof (mach_ringed t _ _ _ _ W A) as R. pose proof A as [Hn A1 A2 A3 Fr V A4 A5 (port & _)].
    assert (Nx : w_next (mc_w s) + 1 < w_next (mc_w s')).
    { destruct (rg_page _ _ _ _ _ _ R 0 ltac:(lia)) as (e & He & Ho & _). apply (wf_vm _ (grown_wf _ _ G W)) in He. lia. }
    assert (HH : at_home t (mc_w s') h n (w_next (mc_w s) + 1) (fun _ => 0)).
    { split; rewrite ?Ea, ?Hl; try assumption; try reflexivity. split; [exact Nx| |].
      - intros fd f. rewrite (gw_fd _ _ G). intros Hf. apply (wf_fd _ W) in Hf. lia.
      - intros path Hp. rewrite (gw_fs _ _ G). intros Eo. apply (wf_fs _ W) in Eo. lia. }
    pose proof (fun x => page_iff t Ht _ _ _ _ _ x HH) as I. rewrite Ea in I. rewrite Hl.
    split; [exact IC|]. split; [nia|]. split; [nia|]. split; [intros pg Hp; apply Fr, I, Hp|]. split; [|exists n; exact HH].
    intros pg Hp. rewrite V. unfold two_views.
    assert (J : ~ (ra_ptr a / P <= pg < ra_ptr a / P + 2 * n)) by (intros J; apply Hp, I, J).
    rewrite !in_pages_no by lia. reflexivity.
  Qed.

  Lemma mach_made hint p ports a s' h : pok t p -> hint_ok t hint -> mach_ring_new t hint {| mc_w := pc_w p; mc_ports := ports |} = (Ret a, s') ->
    h_alloc h = a -> h_fit t h ->
    pok t {| pc_a := set_w (pc_a p) (mc_w s'); pc_ring := put (pc_ring p) (pc_cnt p) (Some h); pc_cnt := pc_cnt p + 1 |}.
  Proof.
    intros [A C R RR RM] Hh E Ea F. pose proof (ok_wf _ _ A) as W. pose proof (mach_new_keeps _ _ _ _ Hh E) as K. cbn [mc_w] in K.
    destruct (mach_home hint {| mc_w := pc_w p; mc_ports := ports |} _ _ _ W Hh E Ea) as (_ & _ & _ & Fr & _ & n & H). cbn [mc_w] in *.
    assert (D1 : forall k0 h0 pg, pc_ring p k0 = Some h0 -> ring_page t h0 pg -> ring_page t h pg -> False).
    { intros k0 h0 pg H0 P1 P2. destruct (R k0 h0 H0) as (_ & n0 & o0 & m0 & Hm0).
      destruct (home_entry t Ht _ _ _ _ _ _ Hm0 P1) as (e & He & _). rewrite (Fr pg P2) in He. discriminate He. }
    split; cbn [pc_a pc_ring pc_cnt].
    - exact (kept_maps _ _ K A).
    - intros k Hk. rewrite put_other by lia. apply C. lia.
    - intros k h0 H0. apply put_cases in H0 as [[_ ->]|[_ H0]].
      + split; [exact F|]. exists n, (w_next (pc_w p) + 1), (fun _ => 0). exact H.
      + destruct (R k h0 H0) as (F0 & n0 & o0 & m0 & Hm0). split; [exact F0|]. exists n0, o0, m0. exact (kept_home _ _ _ _ _ _ K Hm0).
    - intros k1 k2 h1 h2 pg H1 H2 N P1 P2. apply put_cases in H1 as [[-> ->]|[N1 H1]]; apply put_cases in H2 as [[-> ->]|[N2 H2]].
      + contradiction.
      + exact (D1 _ _ _ H2 P2 P1).
      + exact (D1 _ _ _ H1 P1 P2).
      + exact (RR _ _ _ _ pg H1 H2 N P1 P2).
    - intros k1 h1 k2 l pg H1 Hl P1 P2. cbn in Hl. apply put_cases in H1 as [[-> ->]|[N1 H1]]; [|exact (RM _ _ _ _ _ H1 Hl P1 P2)].
      destruct (own_mapped_live t _ _ _ _ A Hl P2) as (e & He). unfold pc_w in Fr. rewrite (Fr pg P1) in He. discriminate He.
  Qed.

  Lemma mach_new_pok mk hint s : pok t (mp_p s) -> hint_ok t hint -> (forall pg len, h_alloc (mk pg len) = {| ra_ptr := pg; ra_len := len |}) ->
    (forall pg len, 0 < len -> 2 * len <= 2 ^ t_bits t -> h_fit t (mk pg len)) -> pok t (mp_p (snd (mach_new t mk hint s))).
  Proof.
    intros K Hh M1 M2. unfold mach_new. destruct (mach_ring_new t hint (mp_mach s)) as [r m] eqn:E. cbv zeta.
    pose proof (mach_new_keeps _ _ _ _ Hh E) as Kp. cbn [mp_mach mc_w] in Kp.
    destruct r as [a|e| | |]; cbn [snd mp_p]; try exact (kept_pok _ _ Kp K).
    assert (Ea : h_alloc (mk (ra_ptr a) (ra_len a)) = a) by (rewrite M1; destruct a; reflexivity).
    destruct (mach_home hint (mp_mach s) _ _ _ (ok_wf _ _ (pk_api _ _ K)) Hh E Ea) as (_ & L1 & L2 & _).
    apply (mach_made hint (mp_p s) (mp_ports s) a m); try assumption. apply M2; lia.
  Qed.

  (** ** Dropping a ring *)
  Lemma mach_home_drop s h n o m r s' : at_home t (mc_w s) h n o m -> mach_ring_drop t (h_alloc h) s = (r, s') ->
    r = Ret tt /\ mc_ports s' = mc_ports s /\
    w_obj (mc_w s') = w_obj (mc_w s) /\ w_next (mc_w s') = w_next (mc_w s) /\ w_fd (mc_w s') = w_fd (mc_w s) /\ w_fs (mc_w s') = w_fs (mc_w s) /\
    (((forall pg, ring_page t h pg -> w_vm (mc_w s') pg = None) /\ (forall pg, ~ ring_page t h pg -> w_vm (mc_w s') pg = w_vm (mc_w s) pg)) \/
     (refused_last (mc_w s) (mc_w s') /\ w_vm (mc_w s') = w_vm (mc_w s))).
  Proof.
    intros H E. pose proof H as [L R _ Lo Hi]. pose proof (fun x => page_iff t Ht _ _ _ _ _ x H) as I.
    destruct (h_alloc h) as [pg len] eqn:Ea. cbn [ra_ptr ra_len] in *. subst len.
    pose proof (rg_n _ _ _ _ _ _ R) as Hn. pose proof (bits_half t Hg) as [B1 B2].
    unfold mach_ring_drop in E. cbn [ra_ptr ra_len] in E. destruct (mach_unmap_ring t pg (P * n) s) as [r1 s1] eqn:Eu.
    apply (mach_unmap_spec t Hg) in Eu as (E1 & E2 & E3 & E4 & E5 & E6); [|nia|exact (rg_align _ _ _ _ _ _ R)].
    destruct r1 as [[]|e| | |]; try contradiction E6; injection E as <- <-; (split; [reflexivity|]); do 5 (split; [assumption|]).
    - left. split; intros x Hx; rewrite E6; [rewrite in_pages_yes; [reflexivity|]|rewrite in_pages_no; [reflexivity|]].
      + apply I, Hx.
      + intros J. apply Hx, I, J.
    - right. destruct E6 as (_ & V & Rf). auto.
  Qed.

  Lemma less_safe w w' o : w_obj w' = w_obj w -> w_next w' = w_next w -> w_fd w' = w_fd w -> w_fs w' = w_fs w ->
    (forall pg e, w_vm w' pg = Some e -> w_vm w pg = Some e) -> safe o w w'.
  Proof.
    intros O N F S V [P1 P2 P3]. split.
    - split; [rewrite N|rewrite F|rewrite S]; assumption.
    - rewrite O. reflexivity.
    - rewrite O. reflexivity.
    - intros p e He Ho. eauto.
  Qed.
  Lemma less_wf w w' : w_obj w' = w_obj w -> w_next w' = w_next w -> w_fd w' = w_fd w -> w_fs w' = w_fs w ->
    (forall pg e, w_vm w' pg = Some e -> w_vm w pg = Some e) -> wf w -> wf w'.
  Proof. intros O N F S V [W1 W2 W3 W4]. split; rewrite ?O, ?N, ?F, ?S; eauto. Qed.

  (** What is left of the world by a drop. *)
  Lemma drop_less s h n o m r s' : at_home t (mc_w s) h n o m -> mach_ring_drop t (h_alloc h) s = (r, s') ->
    forall pg e, w_vm (mc_w s') pg = Some e -> w_vm (mc_w s) pg = Some e.
  Proof.
    intros H E. destruct (mach_home_drop _ _ _ _ _ _ _ H E) as (_ & _ & _ & _ & _ & _ & [[D1 D2]|[_ D]]); intros pg e.
    - assert (Dec : ring_page t h pg \/ ~ ring_page t h pg) by (unfold ring_page, ring_addr; lia).
      destruct Dec as [Y|N]; [rewrite (D1 _ Y); discriminate|rewrite (D2 _ N); auto].
    - rewrite D. auto.
  Qed.

  Lemma mach_drop_pok p ports k h r s' : pok t p -> pc_ring p k = Some h ->
    mach_ring_drop t (h_alloc h) {| mc_w := pc_w p; mc_ports := ports |} = (r, s') -> pok t (pc_put p (mc_w s') k None).
  Proof.
    intros [A C R RR RM] Hk E. destruct (R k h Hk) as (F & n & o & m & H).
    set (s0 := {| mc_w := pc_w p; mc_ports := ports |}) in E. change (at_home t (mc_w s0) h n o m) in H.
    destruct (mach_home_drop _ _ _ _ _ _ _ H E) as (_ & _ & E1 & E2 & E3 & E4 & D). pose proof (drop_less _ _ _ _ _ _ _ H E) as Ls. subst s0. cbn [mc_w] in *.
    assert (V : forall pg, ~ ring_page t h pg -> w_vm (mc_w s') pg = w_vm (pc_w p) pg).
    { intros pg Hp. destruct D as [[_ D]|[_ D]]; [exact (D pg Hp)|rewrite D; reflexivity]. }
    assert (Sub : forall k0 h0, put (pc_ring p) k None k0 = Some h0 -> k0 <> k /\ pc_ring p k0 = Some h0).
    { intros k0 h0. unfold put. destruct (Z.eqb_spec k0 k); [discriminate|auto]. }
    split; cbn [pc_put pc_a pc_ring pc_cnt].
    - apply api_same; [exact A|exact (less_wf _ _ E1 E2 E3 E4 Ls (ok_wf _ _ A))|].
      intros k0 l pg Hl Ho. apply V. intros Hp. exact (RM _ _ _ _ _ Hk Hl Hp Ho).
    - intros k0 Hk0. unfold put. destruct (k0 =? k); [reflexivity|apply C, Hk0].
    - intros k2 h2 H2. apply Sub in H2 as [N2 H2]. destruct (R k2 h2 H2) as (F2 & n2 & o2 & m2 & Hm2). split; [exact F2|].
      exists n2, o2, m2. apply (home_kept_eq t Ht _ _ _ _ _ _ Hm2).
      + exact (less_safe _ _ _ E1 E2 E3 E4 Ls).
      + intros pg Hp. apply V. intros Hp'. exact (RR _ _ _ _ _ H2 Hk N2 Hp Hp').
    - intros k1 k2 h1 h2 pg H1 H2. apply Sub in H1 as [_ H1]. apply Sub in H2 as [_ H2]. exact (RR _ _ _ _ pg H1 H2).
    - intros k1 h1 k2 l pg H1. apply Sub in H1 as [_ H1]. exact (RM _ _ _ _ _ H1).
  Qed.

  (** ** The invariant *)
  Lemma same_step c s : (match c with PMap _ | PCall _ _ | PICall _ _ => True | _ => False end) ->
    mstep t c s = (fst (pstep t Anonymous c (mp_p s)), {| mp_p := snd (pstep t Anonymous c (mp_p s)); mp_ports := mp_ports s |}).
  Proof. destruct c; try contradiction; intros _; unfold mstep; destruct (pstep _ _ _ _); reflexivity. Qed.

  Theorem mstep_ok c s : pok t (mp_p s) -> mcall_ok t c -> pok t (mp_p (snd (mstep t c s))).
  Proof.
    intros K [CO Hn]. destruct c as [c|hint clock|hint clock|k c|k c|k].
    - rewrite same_step by exact Logic.I. exact (pstep_ok t Anonymous Ht _ _ K CO).
    - apply mach_new_pok; [exact K|split; assumption|reflexivity|]. intros. apply new_fit; assumption.
    - apply mach_new_pok; [exact K|split; assumption|reflexivity|]. intros. apply new_fit; assumption.
    - rewrite same_step by exact Logic.I. exact (pstep_ok t Anonymous Ht _ _ K CO).
    - rewrite same_step by exact Logic.I. exact (pstep_ok t Anonymous Ht _ _ K CO).
    - cbn [mstep]. destruct (pc_ring (mp_p s) k) as [h|] eqn:Hk; [|exact K].
      destruct (mach_ring_drop t (h_alloc h) (mp_mach s)) as [r m] eqn:E. exact (mach_drop_pok _ _ _ _ _ _ K Hk E).
  Qed.
  Theorem mreached_ok s : mreached t s -> pok t (mp_p s).
  Proof. induction 1 as [w ports W|s c R IH CO]; [exact (fresh_ok t w W)|exact (mstep_ok c s IH CO)]. Qed.
End MachProc.
