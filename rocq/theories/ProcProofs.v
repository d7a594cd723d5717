(** Every call of a program keeps its maps and rings apart and each ring's
    memory shown twice. *)
From Coq Require Import Lia.
From Verif Require Import Base Spec ErrorModel RingSpec RingModel SizeModel SizeProofs OsModel MapModel MapSpec OsProofs MapProofs MapCreate MapOps
  ApiModel ApiSpec OthersProofs ApiProofs RingMapModel RingMapSpec MirrorProofs RingMapClaims RingProofs RingWeak MemRingModel MemRingProofs
  ProcModel ProcSpec ProcFrame.

(** Loads and stores have no errors, so their error type does not matter. *)
Lemma load_any {E} t w a b : load (E:=error) t w a = Ret b -> load (E:=E) t w a = Ret b.
Proof.
  unfold load. destruct (w_vm w (a / t_page t)) as [e|]; [|discriminate]. destruct (negb _); [discriminate|].
  destruct (_ <=? _); [discriminate|]. intros [= H]. rewrite H. reflexivity.
Qed.
Lemma store_any {E} t a b w w' : store (E:=error) t a b w = (Ret tt, w') -> store (E:=E) t a b w = (Ret tt, w').
Proof.
  unfold store. destruct (w_vm w (a / t_page t)) as [e|]; [|discriminate]. destruct (negb _); [discriminate|]. cbv zeta.
  destruct (_ <=? _); [discriminate|]. destruct (p_shared e); [destruct (_ <? _)|]; intros [= H]; rewrite H; reflexivity.
Qed.

(** What a store into object [o] leaves alone. *)
Record only_in (o : Z) (w w' : world) : Prop := {
  oi_vm : w_vm w' = w_vm w;
  oi_next : w_next w' = w_next w;
  oi_fd : w_fd w' = w_fd w;
  oi_fs : w_fs w' = w_fs w;
  oi_orc : w_orc w' = w_orc w;
  oi_obj : forall o', o' <> o -> w_obj w' o' = w_obj w o';
  oi_size : o_size (w_obj w' o) = o_size (w_obj w o);
  oi_disk : o_disk (w_obj w' o) = o_disk (w_obj w o)
}.
Lemma only_in_refl o w : only_in o w w.
Proof. split; reflexivity. Qed.
Lemma only_in_trans o w1 w2 w3 : only_in o w1 w2 -> only_in o w2 w3 -> only_in o w1 w3.
Proof.
  intros [A1 A2 A3 A4 A5 A6 A7 A8] [B1 B2 B3 B4 B5 B6 B7 B8]. split; try congruence.
  intros o' Ho. rewrite B6, A6; auto.
Qed.

Section Proc.
  Variable t : target.
  Variable plat : platform.
  Hypothesis Ht : posix_target t.
  Notation P := (t_page t).
  Let Hg : good_target t := proj1 Ht.
  Let HP : 0 < P.
  Proof. exact (pow2_pos _ (proj1 (proj2 Hg))). Qed.
  Let HB : 32 <= t_bits t <= 64.
  Proof. destruct Hg as [[E|E] _]; lia. Qed.

  Definition h_fit (h : held) : Prop :=
    match h with
    | HRing k => fit t (k_ptr k) (k_len k) k
    | HInf k => ifit t (ki_ptr k) (ki_len k) k
    end.
  (** The ring's memory is object [o], [n] pages long, holding [m]. *)
  Record at_home (w : world) (h : held) (n o : Z) (m : Z -> byte) : Prop := {
    hm_len : ra_len (h_alloc h) = P * n;
    hm_ring : ringed t w (ra_ptr (h_alloc h)) n o m;
    hm_priv : priv w o;
    hm_low : P <= ra_ptr (h_alloc h);
    hm_high : ra_ptr (h_alloc h) + 2 * ra_len (h_alloc h) <= 2 ^ t_bits t - P
  }.

  Record pok (p : proc) : Prop := {
    pk_api : api_ok t (pc_a p);
    pk_cnt : forall k, pc_cnt p <= k -> pc_ring p k = None;
    pk_ring : forall k h, pc_ring p k = Some h -> h_fit h /\ exists n o m, at_home (pc_w p) h n o m;
    pk_rings : forall k1 k2 h1 h2 pg, pc_ring p k1 = Some h1 -> pc_ring p k2 = Some h2 -> k1 <> k2 ->
      ring_page t h1 pg -> ring_page t h2 pg -> False;
    pk_maps : forall k h k' l pg, pc_ring p k = Some h -> a_live (pc_a p) k' = Some l ->
      ring_page t h pg -> own_page t (l_map l) pg -> False
  }.

  Lemma page_iff w h n o m pg : at_home w h n o m ->
    (ring_page t h pg <-> ra_ptr (h_alloc h) / P <= pg < ra_ptr (h_alloc h) / P + 2 * n).
  Proof.
    intros [L R _ _ _]. unfold ring_page, ring_addr. rewrite L.
    rewrite <- (page_in t Hg _ _ (P * pg) (rg_n _ _ _ _ _ _ R) (rg_align _ _ _ _ _ _ R)).
    replace (P * pg / P) with pg by (rewrite Z.mul_comm, Z.div_mul by lia; reflexivity). reflexivity.
  Qed.
  Lemma home_entry w h n o m pg : at_home w h n o m -> ring_page t h pg ->
    exists e, w_vm w pg = Some e /\ p_obj e = o /\ p_shared e = true /\ p_copy e = None.
  Proof.
    intros H Hp. apply (page_iff _ _ _ _ _ _ H) in Hp. pose proof (hm_ring _ _ _ _ _ H) as R.
    destruct (rg_page _ _ _ _ _ _ R (pg - ra_ptr (h_alloc h) / P) ltac:(lia)) as (e & E & A).
    replace (ra_ptr (h_alloc h) / P + (pg - ra_ptr (h_alloc h) / P)) with pg in E by lia. exists e. tauto.
  Qed.
  Lemma home_only w h n o m pg e : at_home w h n o m -> w_vm w pg = Some e -> p_obj e = o -> ring_page t h pg.
  Proof.
    intros H He Ho. apply (page_iff _ _ _ _ _ _ H). exact (rg_only _ _ _ _ _ _ (hm_ring _ _ _ _ _ H) _ _ He Ho).
  Qed.
  Lemma home_page0 w h n o m : at_home w h n o m -> exists pg, ring_page t h pg.
  Proof.
    intros H. exists (ra_ptr (h_alloc h) / P). apply (page_iff _ _ _ _ _ _ H). pose proof (rg_n _ _ _ _ _ _ (hm_ring _ _ _ _ _ H)). lia.
  Qed.

  (** A ring's memory through a call that is not about it. *)
  Lemma home_kept w w' h n o m : at_home w h n o m -> safe o w w' ->
    (forall pg e, ring_page t h pg -> w_vm w pg = Some e -> exists e', w_vm w' pg = Some e' /\ same_place e e' /\
       (p_copy e' = p_copy e \/ (p_copy e' = None /\ p_shared e = false))) ->
    at_home w' h n o m.
  Proof.
    intros H S V. pose proof H as [L R Pv Lo Hi]. destruct (S Pv) as [S1 S2 S3 S4].
    split; try assumption. pose proof R as [Rn Ra Rp Ro Rs Rd]. split; try assumption.
    - intros k Hk. destruct (Rp k Hk) as (e & E & A1 & A2 & A3 & A4 & A5 & A6).
      assert (Hp : ring_page t h (ra_ptr (h_alloc h) / P + k)) by (apply (page_iff _ _ _ _ _ _ H); lia).
      destruct (V _ e Hp E) as (e' & E' & (B1 & B2 & B3 & B4 & _ & B5 & _) & C).
      exists e'. split; [exact E'|]. do 5 (split; [congruence|]). destruct C as [C|[C _]]; congruence.
    - intros p e' He Ho. destruct (S4 p e' He Ho) as (e & E & Eo). exact (Ro p e E Eo).
    - rewrite S2. exact Rs.
    - intros i Hi'. rewrite S3. apply Rd, Hi'.
  Qed.
  Lemma home_kept_eq w w' h n o m : at_home w h n o m -> safe o w w' ->
    (forall pg, ring_page t h pg -> w_vm w' pg = w_vm w pg) -> at_home w' h n o m.
  Proof.
    intros H S V. apply (home_kept _ _ _ _ _ _ H S). intros pg e Hp He. exists e. rewrite V by exact Hp.
    split; [exact He|]. split; [apply same_place_refl|auto].
  Qed.

  (** ** Calls on maps *)
  Lemma map_keeps c a r a' h n o m : api_ok t a -> pcall_ok t (PMap c) -> step t c a = (r, a') -> at_home (a_w a) h n o m ->
    (forall k l pg, a_live a k = Some l -> ring_page t h pg -> own_page t (l_map l) pg -> False) ->
    at_home (a_w a') h n o m /\
    (forall k l pg, a_live a' k = Some l -> ring_page t h pg -> own_page t (l_map l) pg -> False).
  Proof.
    intros OK [CO Pa] E H Ap.
    assert (S : safe o (a_w a) (a_w a')).
    { replace a' with (snd (step t c a)) by (rewrite E; reflexivity). apply safe_step.
      - destruct c; auto.
      - destruct c; auto. intros l Hl Hi e He Ho.
        destruct (byte_page t Ht _ _ _ _ _ _ (ok_live _ _ OK _ _ Hl) i Hi) as (Ep & Ow & _). rewrite Ep in He.
        exact (Ap _ _ _ Hl (home_only _ _ _ _ _ _ _ H He Ho) Ow). }
    destruct (step_kinds t Ht _ _ _ _ OK CO E) as [X W' L' C'|l Sj X W' L' C' B' Fr|k l l' Sj L Wi El L' C'|k l -> L L' C' D|oe _ V W' L' C'].
    - split.
      + apply (home_kept _ _ _ _ _ _ H S). intros pg e _ He. exact (ex_vm _ _ X pg e He).
      + rewrite L'. exact Ap.
    - split.
      + apply (home_kept _ _ _ _ _ _ H S). intros pg e _ He. exact (ex_vm _ _ X pg e He).
      + intros k l0 pg Hl Hp Ho. rewrite L' in Hl. apply put_cases in Hl as [[_ ->]|[_ Hl]]; [|exact (Ap _ _ _ Hl Hp Ho)].
        destruct (home_entry _ _ _ _ _ _ H Hp) as (e & He & _). rewrite (Fr pg Ho) in He. discriminate He.
    - split.
      + apply (home_kept_eq _ _ _ _ _ _ H S). intros pg Hp. apply (wi_out _ _ _ _ Wi). intros O. exact (Ap _ _ _ L Hp O).
      + intros k0 l0 pg Hl Hp Ho. rewrite L' in Hl. apply put_cases in Hl as [[_ ->]|[_ Hl]]; [|exact (Ap _ _ _ Hl Hp Ho)].
        apply (Ap _ _ _ L Hp). destruct El as [->|[->| ->]]; exact Ho.
    - split.
      + apply (home_kept_eq _ _ _ _ _ _ H S). intros pg Hp. destruct D as [Q|(_ & _ & D2)]; [rewrite (q_vm _ _ Q); reflexivity|].
        apply D2. intros O. exact (Ap _ _ _ L Hp O).
      + intros k0 l0 pg Hl Hp Ho. rewrite L' in Hl. unfold put in Hl. destruct (k0 =? k); [discriminate Hl|]. exact (Ap _ _ _ Hl Hp Ho).
    - split.
      + apply (home_kept _ _ _ _ _ _ H S). intros pg e _ He. exact (interfered_vm _ _ _ _ V He).
      + rewrite L'. exact Ap.
  Qed.

  Lemma pok_map c p r a' : pok p -> pcall_ok t (PMap c) -> step t c (pc_a p) = (r, a') ->
    pok {| pc_a := a'; pc_ring := pc_ring p; pc_cnt := pc_cnt p |}.
  Proof.
    intros [A C R RR RM] CO E. split; cbn [pc_a pc_ring pc_cnt]; try assumption.
    - replace a' with (snd (step t c (pc_a p))) by (rewrite E; reflexivity). exact (step_ok t Ht _ _ A (proj1 CO)).
    - intros k h Hk. destruct (R k h Hk) as (F & n & o & m & H). split; [exact F|]. exists n, o, m.
      apply (map_keeps c _ r a' h n o m A CO E H). intros k' l pg Hl Hp. exact (RM _ _ _ _ _ Hk Hl Hp).
    - intros k h k' l pg Hk Hl Hp. destruct (R k h Hk) as (F & n & o & m & H).
      destruct (map_keeps c _ r a' h n o m A CO E H) as [_ K]; [|exact (K k' l pg Hl Hp)].
      intros k2 l2 pg2 Hl2 Hp2. exact (RM _ _ _ _ _ Hk Hl2 Hp2).
  Qed.

  (** ** Calls on rings *)
  (** Entries of maps stay as they are, so the maps stay backed. *)
  Lemma api_same a w' : api_ok t a -> wf w' ->
    (forall k l pg, a_live a k = Some l -> own_page t (l_map l) pg -> w_vm w' pg = w_vm (a_w a) pg) -> api_ok t (set_w a w').
  Proof.
    intros [W C L Ap] W' V. split; cbn; try assumption. intros k l Hl. apply (backed_kept t (a_w a)); [exact (L k l Hl)|].
    intros pg e Ho He. exists e. rewrite (V k l pg Hl Ho). split; [exact He|apply kept_refl].
  Qed.

  Lemma home_peek pg n o : forall w m v, ringed t w pg n o m -> 0 <= v < 2 * (P * n) ->
    load (E:=io_error) t w (pg + v) = Ret (m (v mod (P * n))).
  Proof. intros w m v R Hv. apply load_any, (ring_load t Hg _ _ _ _ _ _ R Hv). Qed.
  Lemma home_poke pg n o : forall w m v b, ringed t w pg n o m -> 0 <= v < 2 * (P * n) ->
    exists w', store (E:=io_error) t (pg + v) b w = (Ret tt, w') /\ ringed t w' pg n o (upd m (v mod (P * n)) b) /\ only_in o w w'.
  Proof.
    intros w m v b R Hv. destruct (ring_store t Hg _ _ _ _ _ v b R Hv) as (w' & E & R' & A1 & A2 & A3 & A4 & A5 & A6 & A7).
    exists w'. split; [apply store_any, E|]. split; [exact R'|]. split; try assumption.
    clear R'. unfold store in E. destruct (w_vm w _) as [e|]; [|discriminate]. destruct (negb _); [discriminate|]. cbv zeta in E.
    destruct (_ <=? _); [discriminate|]. destruct (p_shared e); [|injection E as <-; reflexivity].
    destruct (_ <? _); injection E as <-; [|reflexivity]. cbn. unfold put. destruct (Z.eqb_spec o (p_obj e)) as [->|]; reflexivity.
  Qed.

  (** [Ring] on the machine: what [RingModel] says. *)
  Lemma ring_call_spec k w n o m c : at_home w (HRing k) n o m -> h_fit (HRing k) -> rop_ok t c ->
    agrees t world (k_ptr k) (k_len k) (fun w m => ringed t w (k_ptr k) n o m) (only_in o) w
      (ring_step t (abs k m) c) (kring_step t world (load t) (store t) c k w).
  Proof.
    intros [L R Pv Lo Hi] F Hc. cbn [h_alloc ra_ptr ra_len h_fit] in *. pose proof (rg_n _ _ _ _ _ _ R) as Hn.
    assert (Hl : 0 < k_len k) by (rewrite L; nia).
    apply step_agrees; try assumption; try lia.
    - rewrite L. apply home_peek.
    - rewrite L. apply home_poke.
    - intros. apply only_in_refl.
    - intros. eapply only_in_trans; eassumption.
  Qed.
  Lemma inf_call_spec k w n o m c : at_home w (HInf k) n o m -> h_fit (HInf k) -> irop_args t c ->
    iagrees t world (ki_ptr k) (ki_len k) (fun w m => ringed t w (ki_ptr k) n o m) (only_in o) w
      (iring_step t (iabs k m) c) (kiring_step t world (load t) (store t) c k w).
  Proof.
    intros [L R Pv Lo Hi] F Hc. cbn [h_alloc ra_ptr ra_len h_fit] in *. pose proof (rg_n _ _ _ _ _ _ R) as Hn.
    assert (Hl : 0 < ki_len k) by (rewrite L; nia).
    apply istep_agrees; try assumption; try lia.
    - rewrite L. apply home_peek.
    - rewrite L. apply home_poke.
    - intros. apply only_in_refl.
    - intros. eapply only_in_trans; eassumption.
  Qed.

  (** Same place, same length. *)
  Definition same_alloc (h h' : held) : Prop := h_alloc h' = h_alloc h.

  Lemma ring_call k w n o m c r k' w' : at_home w (HRing k) n o m -> h_fit (HRing k) -> rop_ok t c ->
    kring_step t world (load t) (store t) c k w = (r, (k', w')) ->
    h_fit (HRing k') /\ same_alloc (HRing k) (HRing k') /\ only_in o w w' /\ exists m', at_home w' (HRing k') n o m'.
  Proof.
    intros H F Hc E. pose proof (ring_call_spec k w n o m c H F Hc) as A. rewrite E in A. unfold agrees, agr in A.
    assert (K : fit t (k_ptr k) (k_len k) k' /\ only_in o w w' /\ exists m', ringed t w' (k_ptr k) n o m').
    { destruct (ring_step t (abs k m) c) as [[r1 x]|e| | |]; try contradiction A.
      - destruct A as (k1 & w1 & [= -> -> ->] & _ & A2 & A3 & A4). eauto.
      - destruct A as (k1 & w1 & m1 & [= -> -> ->] & A2 & A3 & A4). eauto. }
    clear A. destruct K as (K1 & K2 & m' & K3). pose proof K1 as (E1 & E2 & _).
    assert (SA : h_alloc (HRing k') = h_alloc (HRing k)) by (cbn; rewrite E1, E2; reflexivity).
    split; [cbn; rewrite E1, E2; exact K1|]. split; [exact SA|]. split; [exact K2|]. exists m'.
    destruct H as [L R [Pv1 Pv2 Pv3] Lo Hi]. split; rewrite ?SA; try assumption.
    split; [rewrite (oi_next _ _ _ K2)|rewrite (oi_fd _ _ _ K2)|rewrite (oi_fs _ _ _ K2)]; assumption.
  Qed.
  Lemma inf_call k w n o m c r k' w' : at_home w (HInf k) n o m -> h_fit (HInf k) -> irop_args t c ->
    kiring_step t world (load t) (store t) c k w = (r, (k', w')) ->
    h_fit (HInf k') /\ same_alloc (HInf k) (HInf k') /\ only_in o w w' /\ exists m', at_home w' (HInf k') n o m'.
  Proof.
    intros H F Hc E. pose proof (inf_call_spec k w n o m c H F Hc) as A. rewrite E in A. unfold iagrees, agr in A.
    assert (K : ifit t (ki_ptr k) (ki_len k) k' /\ only_in o w w' /\ exists m', ringed t w' (ki_ptr k) n o m').
    { destruct (iring_step t (iabs k m) c) as [[r1 x]|e| | |]; try contradiction A.
      - destruct A as (k1 & w1 & [= -> -> ->] & _ & A2 & A3 & A4). eauto.
      - destruct A as (k1 & w1 & m1 & [= -> -> ->] & A2 & A3 & A4). eauto. }
    clear A. destruct K as (K1 & K2 & m' & K3). pose proof K1 as (E1 & E2 & _).
    assert (SA : h_alloc (HInf k') = h_alloc (HInf k)) by (cbn; rewrite E1, E2; reflexivity).
    split; [cbn; rewrite E1, E2; exact K1|]. split; [exact SA|]. split; [exact K2|]. exists m'.
    destruct H as [L R [Pv1 Pv2 Pv3] Lo Hi]. split; rewrite ?SA; try assumption.
    split; [rewrite (oi_next _ _ _ K2)|rewrite (oi_fd _ _ _ K2)|rewrite (oi_fs _ _ _ K2)]; assumption.
  Qed.

  (** Two rings have different memory. *)
  Lemma homes_apart w h1 n1 o1 m1 h2 n2 o2 m2 : at_home w h1 n1 o1 m1 -> at_home w h2 n2 o2 m2 ->
    (forall pg, ring_page t h1 pg -> ring_page t h2 pg -> False) -> o1 <> o2.
  Proof.
    intros H1 H2 A ->. destruct (home_page0 _ _ _ _ _ H1) as (pg & Hp). destruct (home_entry _ _ _ _ _ _ H1 Hp) as (e & He & Ho & _).
    exact (A pg Hp (home_only _ _ _ _ _ _ _ H2 He Ho)).
  Qed.
  Lemma only_in_safe o o' w w' : only_in o w w' -> o' <> o -> safe o' w w'.
  Proof.
    intros [A1 A2 A3 A4 _ A6 _ _] N [P1 P2 P3]. split.
    - split; [rewrite A2|rewrite A3|rewrite A4]; assumption.
    - rewrite A6 by exact N. reflexivity.
    - rewrite A6 by exact N. reflexivity.
    - rewrite A1. eauto.
  Qed.
  Lemma only_in_wf o w w' : only_in o w w' -> wf w -> wf w'.
  Proof.
    intros [A1 A2 A3 A4 _ A6 A7 _] [W1 W2 W3 W4]. split; rewrite ?A1, ?A2, ?A3, ?A4; try assumption.
    intros o'. destruct (Z.eq_dec o' o) as [->|N]; [rewrite A7|rewrite (A6 _ N)]; apply W4.
  Qed.

  Lemma page_same h h' pg : same_alloc h h' -> (ring_page t h' pg <-> ring_page t h pg).
  Proof. intros E. unfold ring_page, ring_addr. rewrite E. reflexivity. Qed.

  (** One ring changed its contents. *)
  Lemma pok_put p k h h' n o m' w' : pok p -> pc_ring p k = Some h -> same_alloc h h' -> h_fit h' ->
    (exists n0 m, at_home (pc_w p) h n0 o m) -> only_in o (pc_w p) w' -> at_home w' h' n o m' -> pok (pc_put p w' k (Some h')).
  Proof.
    intros [A C R RR RM] Hk SA F (n0 & m & H0) O H'. split; cbn [pc_put pc_a pc_ring pc_cnt].
    - apply api_same; [exact A|exact (only_in_wf _ _ _ O (ok_wf _ _ A))|]. intros. rewrite (oi_vm _ _ _ O). reflexivity.
    - intros k' Hk'. rewrite put_other; [apply C, Hk'|]. intros ->. rewrite (C k Hk') in Hk. discriminate Hk.
    - intros k2 h2 H2. apply put_cases in H2 as [[-> ->]|[N2 H2]].
      + split; [exact F|]. exists n, o, m'. exact H'.
      + destruct (R k2 h2 H2) as (F2 & n2 & o2 & m2 & Hm2). split; [exact F2|]. exists n2, o2, m2.
        apply (home_kept_eq _ _ _ _ _ _ Hm2).
        * apply (only_in_safe o); [exact O|]. apply (homes_apart _ _ _ _ _ _ _ _ _ Hm2 H0). intros pg. exact (RR _ _ _ _ pg H2 Hk N2).
        * intros. cbn. rewrite (oi_vm _ _ _ O). reflexivity.
    - intros k1 k2 h1 h2 pg H1 H2 N P1 P2. apply put_cases in H1 as [[-> ->]|[N1 H1]]; apply put_cases in H2 as [[-> ->]|[N2 H2]].
      + contradiction.
      + apply (page_same h) in P1; [|exact SA]. exact (RR _ _ _ _ pg Hk H2 N P1 P2).
      + apply (page_same h) in P2; [|exact SA]. exact (RR _ _ _ _ pg H1 Hk N P1 P2).
      + exact (RR _ _ _ _ pg H1 H2 N P1 P2).
    - intros k1 h1 k2 l pg H1 Hl P1 P2. apply put_cases in H1 as [[-> ->]|[N1 H1]].
      + apply (page_same h) in P1; [|exact SA]. exact (RM _ _ _ _ _ Hk Hl P1 P2).
      + exact (RM _ _ _ _ _ H1 Hl P1 P2).
  Qed.

  (** ** Dropping a ring *)
  Lemma home_drop w h n o m r w' : at_home w h n o m -> ring_drop t (h_alloc h) w = (r, w') ->
    r = Ret tt /\ w_obj w' = w_obj w /\ w_next w' = w_next w /\ w_fd w' = w_fd w /\ w_fs w' = w_fs w /\
    (((exists x, w_orc w = Grant x :: w_orc w') /\ (forall pg, ring_page t h pg -> w_vm w' pg = None) /\
      (forall pg, ~ ring_page t h pg -> w_vm w' pg = w_vm w pg)) \/
     (refused_last w w' /\ w_vm w' = w_vm w)).
  Proof.
    intros H E. pose proof H as [L R _ Lo Hi]. destruct (h_alloc h) as [pg len] eqn:Ea. cbn [ra_ptr ra_len] in *.
    pose proof (rg_n _ _ _ _ _ _ R) as Hn. pose proof (bits_half t Hg) as [B1 B2].
    apply (RingMapClaims.drop_spec t Hg) in E; [|nia|exact (rg_align _ _ _ _ _ _ R)].
    destruct E as (Er & E1 & E2 & E3 & E4 & D). do 5 (split; [assumption|]). destruct D as [[D1 D2]|D]; [left|right; exact D].
    split; [exact D1|].
    assert (N : npages t (2 * len) = 2 * n).
    { rewrite L. replace (2 * (P * n)) with (P * (2 * n)) by lia. apply npages_mul, HP. }
    pose proof (fun x => page_iff _ _ _ _ _ x H) as I. rewrite Ea in I. cbn [ra_ptr] in I. rewrite N in D2. split; intros x Hx.
    - rewrite D2, in_pages_yes; [reflexivity|]. apply I, Hx.
    - rewrite D2, in_pages_no; [reflexivity|]. intros J. apply Hx, I, J.
  Qed.

  Lemma pok_drop p k h r w' : pok p -> pc_ring p k = Some h -> ring_drop t (h_alloc h) (pc_w p) = (r, w') -> pok (pc_put p w' k None).
  Proof.
    intros [A C R RR RM] Hk E. destruct (R k h Hk) as (F & n & o & m & H).
    destruct (home_drop _ _ _ _ _ _ _ H E) as (_ & E1 & E2 & E3 & E4 & D).
    assert (V : forall pg, ~ ring_page t h pg -> w_vm w' pg = w_vm (pc_w p) pg).
    { intros pg Hp. destruct D as [(_ & _ & D)|[_ D]]; [exact (D pg Hp)|rewrite D; reflexivity]. }
    assert (W' : wf w').
    { destruct (wfly_ring_drop t (h_alloc h) (pc_w p) (ok_wf _ _ A)) as [W' _]. rewrite E in W'. exact W'. }
    assert (Sub : forall k0 h0, put (pc_ring p) k None k0 = Some h0 -> k0 <> k /\ pc_ring p k0 = Some h0).
    { intros k0 h0. unfold put. destruct (Z.eqb_spec k0 k); [discriminate|auto]. }
    split; cbn [pc_put pc_a pc_ring pc_cnt].
    - apply api_same; [exact A|exact W'|]. intros k0 l pg Hl Ho. apply V. intros Hp. exact (RM _ _ _ _ _ Hk Hl Hp Ho).
    - intros k0 Hk0. unfold put. destruct (k0 =? k); [reflexivity|apply C, Hk0].
    - intros k2 h2 H2. apply Sub in H2 as [N2 H2]. destruct (R k2 h2 H2) as (F2 & n2 & o2 & m2 & Hm2). split; [exact F2|].
      exists n2, o2, m2. apply (home_kept_eq _ _ _ _ _ _ Hm2).
      + pose proof (safely_ring_drop t o2 (h_alloc h) (pc_w p)) as S. rewrite E in S. exact S.
      + intros pg Hp. apply V. intros Hp'. exact (RR _ _ _ _ _ H2 Hk N2 Hp Hp').
    - intros k1 k2 h1 h2 pg H1 H2. apply Sub in H1 as [_ H1]. apply Sub in H2 as [_ H2]. exact (RR _ _ _ _ pg H1 H2).
    - intros k1 h1 k2 l pg H1. apply Sub in H1 as [_ H1]. exact (RM _ _ _ _ _ H1).
  Qed.

  (** ** A new ring *)
  Lemma ring_new_wf clock hint w : is_usize t hint -> wf w ->
    wf (snd (ring_new t plat clock hint w)) /\ files_same w (snd (ring_new t plat clock hint w)).
  Proof.
    intros Hh W. pose proof (round_cases t Hg hint Hh) as Rc. unfold ring_new, sbind. cbn [sout].
    destruct (size_round t (size_alloc t) hint) as [len|e| | |]; try (cbn; apply wf_id, W).
    destruct Rc as [Hl _]. pose proof (wfly_map_ring t plat ltac:(lia) ltac:(lia) HP clock len ltac:(apply Hl) w W) as K.
    destruct (map_ring t plat clock len w) as [[a|e| | |] w1]; exact K.
  Qed.

  Lemma new_fit pg len : 0 < len -> 2 * len <= 2 ^ t_bits t -> h_fit (HRing (kring_new pg len)) /\ h_fit (HInf (kiring_new pg len)).
  Proof.
    intros H1 H2. split; (split; [reflexivity|]; split; [reflexivity|]).
    - exists (fun _ => 0), 0. split; cbn [abs kring_new r_len r_rpos r_wpos k_len k_rpos k_wpos]; try lia; reflexivity.
    - cbn [kiring_new ki_rlen ki_wpos ki_len]. lia.
  Qed.

  (** A failed or finished attempt leaves what was mapped as it was. *)
  Lemma ring_new_vm clock hint w r w' : wf w -> is_usize t hint -> ring_new t plat clock hint w = (r, w') ->
    forall pg e, w_vm w pg = Some e -> w_vm w' pg = Some e.
  Proof.
    intros W Hh E pg e He. destruct (ring_new_spec t Hg plat clock hint w r w' W Hh E) as [_ S].
    destruct r as [a|x| | |]; try contradiction S.
    - destruct S as [_ [(n & Hn & Hl & Fr & V) _ _ _ _ _ _ _ _ _]]. rewrite V. unfold two_views.
      destruct (in_pages_cases (ra_ptr a / P) n pg) as [[_ I]|[-> I]]; [rewrite Fr in He by lia; discriminate He|].
      destruct (in_pages_cases (ra_ptr a / P + n) n pg) as [[_ J]|[-> J]]; [rewrite Fr in He by lia; discriminate He|exact He].
    - destruct S as (_ & _ & _ & _ & [V|(_ & len & first & V1 & V2)]); [rewrite V; exact He|].
      rewrite V2; [exact He|]. intros I. rewrite (V1 pg I) in He. discriminate He.
    - destruct S as [Q _]. rewrite (q_vm _ _ Q). exact He.
  Qed.

  Lemma keeps_homes clock hint w r w' h n o m : wf w -> is_usize t hint -> ring_new t plat clock hint w = (r, w') ->
    at_home w h n o m -> at_home w' h n o m.
  Proof.
    intros W Hh E H. apply (home_kept_eq _ _ _ _ _ _ H).
    - pose proof (safely_ring_new t o plat clock hint w) as S. rewrite E in S. exact S.
    - intros pg Hp. destruct (home_entry _ _ _ _ _ _ H Hp) as (e & He & _). rewrite He. exact (ring_new_vm _ _ _ _ _ W Hh E _ _ He).
  Qed.
  Lemma keeps_maps clock hint a r w' : api_ok t a -> is_usize t hint -> ring_new t plat clock hint (a_w a) = (r, w') -> api_ok t (set_w a w').
  Proof.
    intros A Hh E. apply api_same; [exact A| |].
    - destruct (ring_new_wf clock hint (a_w a) Hh (ok_wf _ _ A)) as [K _]. rewrite E in K. exact K.
    - intros k l pg Hl Ho. destruct (own_mapped_live t _ _ _ _ A Hl Ho) as (e & He). rewrite He.
      exact (ring_new_vm _ _ _ _ _ (ok_wf _ _ A) Hh E _ _ He).
  Qed.
  Lemma pok_failed clock hint p r w' : pok p -> is_usize t hint -> ring_new t plat clock hint (pc_w p) = (r, w') -> pok (pc_set_w p w').
  Proof.
    intros [A C R RR RM] Hh E. split; cbn [pc_set_w pc_a pc_ring pc_cnt]; try assumption.
    - exact (keeps_maps _ _ _ _ _ A Hh E).
    - intros k h Hk. destruct (R k h Hk) as (F & n & o & m & H). split; [exact F|]. exists n, o, m.
      exact (keeps_homes _ _ _ _ _ _ _ _ _ (ok_wf _ _ A) Hh E H).
  Qed.

  (** The new ring's own memory: zeros, nobody else's. *)
  Lemma new_home clock hint w a w' h : wf w -> is_usize t hint -> ring_new t plat clock hint w = (Ret a, w') -> h_alloc h = a ->
    is_ceil (t_alloc t) hint (ra_len a) /\ 0 < ra_len a /\ 2 * ra_len a < 2 ^ t_bits t /\
    (forall pg, ring_page t h pg -> w_vm w pg = None) /\
    (forall pg, ~ ring_page t h pg -> w_vm w' pg = w_vm w pg) /\
    exists n, at_home w' h n (w_next w) (fun _ => 0).
  Proof.
    intros W Hh E Ea. destruct (ring_new_spec t Hg plat clock hint w _ w' W Hh E) as (_ & IC & Al).
    destruct (allocated_ringed t plat w w' _ _ W Al) as (n & Hn & R).
    pose proof Al as [(n' & Hn0 & Hl & Fr & V) A1 A2 A3 A4 A5 A6 A7 A8 A9].
    assert (n' = n) by nia. subst n'.
    assert (HH : at_home w' h n (w_next w) (fun _ => 0)).
    { split; rewrite ?Ea; try assumption. split; [exact A8| |].
      - intros fd f Hf. rewrite A6 in Hf. apply (wf_fd _ W) in Hf. lia.
      - intros path Hp. destruct (ring_new_wf clock hint w Hh W) as [_ K]. rewrite E in K. cbn [snd] in K. rewrite (K path Hp).
        intros Eo. apply (wf_fs _ W) in Eo. lia. }
    pose proof (fun x => page_iff _ _ _ _ _ x HH) as I. rewrite Ea in I.
    split; [exact IC|]. split; [nia|]. split; [lia|]. split; [intros pg Hp; apply Fr, I, Hp|]. split; [|exists n; exact HH].
    intros pg Hp. rewrite V. unfold two_views.
    assert (J : ~ (ra_ptr a / P <= pg < ra_ptr a / P + 2 * n)) by (intros J; apply Hp, I, J).
    rewrite !in_pages_no by lia. reflexivity.
  Qed.

  Lemma pok_made clock hint p a w' h : pok p -> is_usize t hint -> ring_new t plat clock hint (pc_w p) = (Ret a, w') -> h_alloc h = a -> h_fit h ->
    pok {| pc_a := set_w (pc_a p) w'; pc_ring := put (pc_ring p) (pc_cnt p) (Some h); pc_cnt := pc_cnt p + 1 |}.
  Proof.
    intros [A C R RR RM] Hh E Ea F. pose proof (ok_wf _ _ A) as W. unfold pc_w in *.
    destruct (new_home _ _ _ _ _ _ W Hh E Ea) as (_ & _ & _ & Fr & _ & n & H).
    assert (D1 : forall k0 h0 pg, pc_ring p k0 = Some h0 -> ring_page t h0 pg -> ring_page t h pg -> False).
    { intros k0 h0 pg H0 P1 P2. destruct (R k0 h0 H0) as (_ & n0 & o0 & m0 & Hm0).
      destruct (home_entry _ _ _ _ _ _ Hm0 P1) as (e & He & _). rewrite (Fr pg P2) in He. discriminate He. }
    split; cbn [pc_a pc_ring pc_cnt].
    - exact (keeps_maps _ _ _ _ _ A Hh E).
    - intros k Hk. rewrite put_other by lia. apply C. lia.
    - intros k h0 H0. apply put_cases in H0 as [[_ ->]|[_ H0]].
      + split; [exact F|]. exists n, (w_next (pc_w p)), (fun _ => 0). exact H.
      + destruct (R k h0 H0) as (F0 & n0 & o0 & m0 & Hm0). split; [exact F0|]. exists n0, o0, m0.
        exact (keeps_homes _ _ _ _ _ _ _ _ _ W Hh E Hm0).
    - intros k1 k2 h1 h2 pg H1 H2 N P1 P2. apply put_cases in H1 as [[-> ->]|[N1 H1]]; apply put_cases in H2 as [[-> ->]|[N2 H2]].
      + contradiction.
      + exact (D1 _ _ _ H2 P2 P1).
      + exact (D1 _ _ _ H1 P1 P2).
      + exact (RR _ _ _ _ pg H1 H2 N P1 P2).
    - intros k1 h1 k2 l pg H1 Hl P1 P2. cbn in Hl. apply put_cases in H1 as [[-> ->]|[N1 H1]]; [|exact (RM _ _ _ _ _ H1 Hl P1 P2)].
      destruct (own_mapped_live t _ _ _ _ A Hl P2) as (e & He). rewrite (Fr pg P1) in He. discriminate He.
  Qed.

  Lemma pok_new mk clock hint p : pok p -> is_usize t hint -> (forall pg len, h_alloc (mk pg len) = {| ra_ptr := pg; ra_len := len |}) ->
    (forall pg len, 0 < len -> 2 * len <= 2 ^ t_bits t -> h_fit (mk pg len)) -> pok (snd (new_ring t plat mk hint clock p)).
  Proof.
    intros K Hh M1 M2. unfold new_ring. destruct (ring_new t plat clock hint (pc_w p)) as [r w'] eqn:E.
    destruct r as [a|e| | |]; cbn [snd]; try exact (pok_failed _ _ _ _ _ K Hh E).
    assert (Ea : h_alloc (mk (ra_ptr a) (ra_len a)) = a) by (rewrite M1; destruct a; reflexivity).
    destruct (new_home _ _ _ _ _ _ (ok_wf _ _ (pk_api _ K)) Hh E Ea) as (_ & L1 & L2 & _).
    apply (pok_made clock hint p a w'); try assumption. apply M2; lia.
  Qed.

  Theorem pstep_ok c p : pok p -> pcall_ok t c -> pok (snd (pstep t plat c p)).
  Proof.
    intros K CO. destruct c as [c|hint clock|hint clock|k c|k c|k]; cbn [pstep].
    - destruct (step t c (pc_a p)) as [r a'] eqn:E. exact (pok_map _ _ _ _ K CO E).
    - apply pok_new; try assumption; [reflexivity|]. intros. apply new_fit; assumption.
    - apply pok_new; try assumption; [reflexivity|]. intros. apply new_fit; assumption.
    - destruct (pc_ring p k) as [[s|s]|] eqn:Hk; try exact K.
      destruct (kring_step t world (load t) (store t) c s (pc_w p)) as [r [s' w']] eqn:E. cbn [snd].
      destruct (pk_ring _ K _ _ Hk) as (F & n & o & m & H). destruct (ring_call _ _ _ _ _ _ _ _ _ H F CO E) as (F' & SA & O & m' & H').
      apply (pok_put p k (HRing s) (HRing s') n o m' w'); eauto.
    - destruct (pc_ring p k) as [[s|s]|] eqn:Hk; try exact K.
      destruct (kiring_step t world (load t) (store t) c s (pc_w p)) as [r [s' w']] eqn:E. cbn [snd].
      destruct (pk_ring _ K _ _ Hk) as (F & n & o & m & H). destruct (inf_call _ _ _ _ _ _ _ _ _ H F CO E) as (F' & SA & O & m' & H').
      apply (pok_put p k (HInf s) (HInf s') n o m' w'); eauto.
    - destruct (pc_ring p k) as [h|] eqn:Hk; [|exact K].
      destruct (ring_drop t (h_alloc h) (pc_w p)) as [r w'] eqn:E. cbn [snd]. exact (pok_drop _ _ _ _ _ K Hk E).
  Qed.

  Lemma fresh_ok w : wf w -> pok (fresh w).
  Proof.
    intros W. split; cbn; try discriminate; auto. split; cbn; try discriminate; auto.
  Qed.
  Theorem preached_ok p : preached t plat p -> pok p.
  Proof. induction 1 as [w W|p c R IH CO]; [exact (fresh_ok w W)|exact (pstep_ok c p IH CO)]. Qed.
End Proc.
