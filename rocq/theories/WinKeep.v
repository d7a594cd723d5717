(** The calls of src/os/windows.rs keep the address space in order. *)
From Coq Require Import Lia.
From Verif Require Import Base Spec ErrorModel SizeModel OsModel MapModel MapSpec RingMapModel RingMapSpec SizeProofs OsProofs
  MapProofs MapCreate MapOps MirrorProofs RingMapClaims WinModel WinSpec WinProofs WinClaims WinCalls WinMapModel WinMapSpec WinSpace.

Section Keep.
  Variable t : target.
  Hypothesis Ht : good_target t.
  Notation P := (t_page t).
  Notation G := (t_alloc t).
  Let HP : 0 < P.
  Proof. exact (pow2_pos _ (proj1 (proj2 Ht))). Qed.
  Let HG : 0 < G.
  Proof. exact (pow2_pos _ (proj1 (proj2 (proj2 Ht)))). Qed.

  Lemma keeps_none s s' a : keeps t s s' -> n_view s' a = None -> n_view s a = None.
  Proof.
    intros K H. destruct (n_view s a) as [n|] eqn:E; [|reflexivity].
    destruct (ev_view _ _ _ _ _ _ K a n E) as [[]|X]. congruence.
  Qed.

  Lemma create_anon_keeps pr size s r s' : 0 <= size < 2 ^ 64 ->
    create_mapping t None pr (hi_dword size) (lo_dword size) s = (r, s') -> keeps t s s'.
  Proof.
    intros Hs H. apply (create_anon_spec t _ _ _ _ _ Hs) in H as [_ H]. destruct r as [h|e| | |]; try contradiction.
    2: apply ev_wq, H.
    destruct H as (C1 & C2 & C3 & (c & C4 & C5 & C6 & C7) & C8 & C9 & C10 & C11 & C12 & C13 & C14 & C15 & C16).
    apply ev_steady.
    - intros p e He. exists e. rewrite C10. split; [exact He|]. split; [apply kept_refl|auto].
    - intros a. rewrite C13. reflexivity.
    - lia.
    - intros o Ho _. rewrite C8, put_other by lia. reflexivity.
    - intros o Ho _. right. rewrite C8, put_other by lia. reflexivity.
    - intros o H. left. apply (named_same _ _ C11 C12), H.
    - intros W. apply (wf_change _ _ W); rewrite ?C10, ?C11, ?C12; eauto; [lia|].
      intros o. rewrite C8. unfold put. destruct (o =? w_next (n_w s)); [right; cbn|auto]. pose proof (npages_bounds t HP size). lia.
  Qed.

  Lemma create_file_keeps fd pr s r s' : create_mapping t (Some fd) pr (hi_dword 0) (lo_dword 0) s = (r, s') -> keeps t s s'.
  Proof.
    intros H. apply create_file_spec in H as [_ H]. destruct r as [h|e| | |]; try contradiction.
    2: apply ev_wq, H.
    destruct H as (C1 & C2 & f & C3 & C4 & C5 & [V1 O1 N1 F1 S1] & C6 & C7 & C8).
    apply ev_steady; rewrite ?V1, ?O1, ?N1; auto; try lia.
    - intros p e He. exists e. split; [exact He|]. split; [apply kept_refl|auto].
    - intros a. rewrite C6. reflexivity.
    - intros o H. left. apply (named_same _ _ F1 S1), H.
    - intros W. exact (wf_quiet _ _ W (Build_quiet _ _ V1 O1 N1 F1 S1)).
  Qed.

  Lemma close_keeps h s : keeps t s (snd (close_handle h s)).
  Proof.
    cbn. apply ev_steady; cbn; auto; try lia.
    intros p e He. exists e. split; [exact He|]. split; [apply kept_refl|auto].
  Qed.

  Lemma viewed_keeps s s' c acc off len base : viewed t s s' c acc off len base -> sc_obj c < w_next (n_w s) -> keeps t s s'.
  Proof.
    intros [A1 A2 A3 A4 A5 A6 A7 A8 A9 A10 _ _ A13 A14 A15 A16] Hc. apply range_ok_iff in A5 as (R1 & R2 & R3).
    pose proof (npages_bounds t HP len).
    apply (ev_added t Ht s s' base (npages t len)); rewrite ?A13, ?A14, ?A15, ?A16; auto; try lia.
    - split.
      + rewrite A9. apply put_same.
      + exact A7.
      + intros p Hp. rewrite A8, in_pages_no by exact Hp. reflexivity.
      + intros a Ha. rewrite A9. apply put_other, Ha.
      + intros a. rewrite A10. reflexivity.
    - apply A6.
    - intros p Hp. rewrite A8, in_pages_yes by exact Hp. eexists. split; [reflexivity|]. cbn. exact Hc.
  Qed.

  Lemma map_view_keeps h acc off len at_ s r s' c : 0 <= off < 2 ^ 64 -> n_sec s h = Some c -> sc_obj c < w_next (n_w s) ->
    map_view t h acc (hi_dword off) (lo_dword off) len at_ s = (r, s') -> keeps t s s'.
  Proof.
    intros Ho Hc Hn H. apply (map_view_spec t _ _ _ _ _ _ _ _ Ho) in H as [_ H]. destruct r as [b|e| | |]; try contradiction.
    - destruct H as (_ & c' & Hc' & _ & V). assert (c' = c) by congruence. subst c'. exact (viewed_keeps _ _ _ _ _ _ _ V Hn).
    - apply ev_wq, H.
  Qed.

  Lemma unmap_view_ev a s r s' : unmap_view t a s = (r, s') -> evolves t (fun x => x = a) none none s s' /\
    (forall x n, n_view s' x = Some n -> n_view s x = Some n).
  Proof.
    intros H. apply unmap_view_spec in H as [_ H]. destruct r as [[]|e| | |]; try contradiction.
    - destruct H as (n & A & B & C & D & D1 & D2 & D3 & D4 & D5 & D6). split.
      + apply (ev_removed t); try (intros; congruence).
        exists n. split; [exact A|]. split; [intros p; rewrite C; unfold in_pages; reflexivity|].
        split; [intros x; rewrite B; reflexivity|intros x; rewrite D; reflexivity].
      + intros x k. rewrite B. unfold put. destruct (x =? a); [discriminate|auto].
    - split; [|intros x n; rewrite (wq_view _ _ H); auto].
      refine (ev_weaken t _ _ _ _ _ _ _ _ _ _ _ (ev_wq t _ _ H)); auto. intros x [].
  Qed.

  Lemma reserve_keeps len s r s' : reserve t len s = (r, s') -> keeps t s s'.
  Proof.
    intros H. unfold reserve in H. apply wbind_run in H as [(pg & s1 & E1 & H)|[(e & E1 & ->)|[[E1 ->]|[[E1 ->]|[E1 ->]]]]];
      apply win_call_run in E1; [|destruct E1 as (c & E1 & ->)| | |]; apply alloc_spec in E1 as (L1 & R1 & S1 & E1); try contradiction; try exact Ht.
    2: apply ev_wq, E1.
    destruct E1 as (A1 & A2 & A3 & A4 & A0 & A5 & A6 & A7 & A8 & A9 & A10).
    assert (OZ : forall o, w_next (n_w s) <= o -> w_obj (n_w s1) o = w_obj (n_w s) o \/ 0 <= o_size (w_obj (n_w s1) o) < 2 ^ 64).
    { intros o _. rewrite A10. unfold put. destruct (o =? w_next (n_w s)); [right; cbn; lia|auto]. }
    apply wbind_run in H as [(u & s2 & E2 & H)|[(e & E2 & ->)|[[E2 ->]|[[E2 ->]|[E2 ->]]]]];
      apply no_result_run in E2 as (r2 & E2 & Er); apply free_spec in E2 as (L2 & R2 & S2 & E2);
      destruct r2 as [[]|e2| | |]; try contradiction; try discriminate Er; try exact Ht.
    - assert (s2 = s') by (injection H; auto). subst s2. destruct E2 as (n & B1 & B2 & B3 & B4 & B5 & B6).
      rewrite A5, put_same in B1. injection B1 as <-. apply ev_same.
      + split.
        * intros p. rewrite B4. destruct (in_pages_cases (pg / P) (npages t len) p) as [[-> I]|[-> I]]; [symmetry; apply A6, I|apply A7, I].
        * intros a. congruence.
        * intros a. rewrite B2, A5. unfold put. destruct (Z.eqb_spec a pg) as [->|]; auto.
      + exact (rest_trans _ _ _ R1 R2).
      + intros o Ho. rewrite B6. apply OZ, Ho.
    - assert (s2 = s') by (injection H; auto). subst s2.
      assert (K1 : keeps t s s1).
      { destruct R1 as [[Q1 Q2 Q3 Q4 Q5] Q6]. apply ev_steady; auto.
        - intros p e He. exists e. split; [|split; [apply kept_refl|auto]]. rewrite A7; [exact He|]. intros I. rewrite (A6 p I) in He. discriminate.
        - intros a. rewrite A4. reflexivity.
        - intros o Ho _. rewrite Q5 by exact Ho. reflexivity.
        - intros o Ho _. right. rewrite Q5 by exact Ho. reflexivity.
        - intros o Ho. left. exact (named_eq _ _ Q2 Q3 _ Ho).
        - intros W. apply (wf_change _ _ W); auto.
          + intros p e' He. destruct (in_pages_cases (pg / P) (npages t len) p) as [[_ I]|[_ I]].
            * right. destruct (A8 p I) as (e & E & Eo). assert (e = e') by congruence. subst e'. lia.
            * left. rewrite A7 in He by exact I. eauto.
          + intros fd f. rewrite Q2. auto.
          + intros q o. rewrite Q3. auto.
          + intros o. destruct (Z.lt_ge_cases o (w_next (n_w s))) as [L|L]; [rewrite Q5 by exact L; auto|].
            destruct (OZ o L) as [-> |X]; auto. }
      destruct E2 as [[Q1 Q2 Q3 Q4 Q5] Q6 Q7 Q8 Q9].
      destruct K1 as [N1 P1 V1 W1 Z1 O1 M1 F1 T1]. split; rewrite ?Q1, ?Q2, ?Q3, ?Q7; auto.
      + intros o Ho. apply M1. apply (named_same _ _ Q4 Q5), Ho.
      + intros W. exact (wf_quiet _ _ (F1 W) (Build_quiet _ _ Q1 Q2 Q3 Q4 Q5)).
      + intros X. destruct (T1 X) as [X1 X2 X3]. split; rewrite ?Q1, ?Q7; assumption.
  Qed.

  Lemma map_ring_handle_keeps h len pg s r s' c : wf (n_w s) -> n_sec s h = Some c -> sc_obj c < w_next (n_w s) -> len <> 0 -> P <= pg ->
    map_ring_handle t h len pg s = (r, s') ->
    keeps t s s' /\ match r with Ret a => a = pg /\ n_view s pg = None /\ n_view s (pg + len) = None | _ => True end.
  Proof.
    intros W Hc Hn Hl Hpg H.
    destruct (map_ring_handle_spec t Ht h len pg s r s' c Hc Hl Hpg H) as (l & _ & _ & R & M).
    assert (X : match r with Ret a => a = pg /\ n_view s pg = None /\ n_view s (pg + len) = None | _ => True end).
    { destruct r; auto. destruct M as (-> & n & -> & [_ _ _ _ _ _ _ _ _ D9 _ _ _]). auto. }
    split; [|exact X]. clear X. unfold map_ring_handle in H.
    assert (Z64 : 0 <= 0 < 2 ^ 64) by lia.
    apply wbind_run in H as [(a & s1 & E1 & H)|[(e & E1 & ->)|[[E1 ->]|[[E1 ->]|[E1 ->]]]]];
      apply win_call_run in E1; [|destruct E1 as (x & E1 & ->)| | |]; pose proof (map_view_keeps _ _ _ _ _ _ _ _ _ Z64 Hc Hn E1) as K1;
      try exact K1.
    apply (map_view_spec t _ _ _ _ _ _ _ _ Z64) in E1 as [L1 (Ea & c1 & Ec & W1 & V1)].
    rewrite Hc in Ec. injection Ec as <-. specialize (Ea ltac:(lia)). subst a. rewrite (proj2 (Z.eqb_neq len 0) Hl) in V1.
    pose proof V1 as [V1a V1b V1l V1f V1r V1o V1e V1v V1w V1x V1s V1c V1ob V1n V1fd V1fs].
    assert (Hc1 : n_sec s1 h = Some c) by congruence. assert (Hn1 : sc_obj c < w_next (n_w s1)) by lia.
    destruct (handle_view t h RingSecondary MapReadWrite 0 len (ptr_add t pg len) s1) as [r2 s2] eqn:E2.
    apply win_call_run in E2.
    destruct r2 as [b|e| | |]; [|destruct E2 as (x & E2 & ->)| | |]; pose proof (map_view_keeps _ _ _ _ _ _ _ _ _ Z64 Hc1 Hn1 E2) as K2;
      pose proof (ev_trans t _ _ _ _ _ W K1 K2) as K12; try (assert (s2 = s') by (injection H; auto); subst s2; exact K12).
    apply (map_view_spec t _ _ _ _ _ _ _ _ Z64) in E2 as [_ E2]. cbn in E2.
    apply wbind_run in H as [(u & s3 & E3 & H)|[(e & E3 & ->)|[[E3 ->]|[[E3 ->]|[E3 ->]]]]];
      apply no_result_run in E3 as (r3 & E3 & Er); pose proof (unmap_rest t _ _ _ _ E3) as R3;
      apply unmap_view_spec in E3 as [L3 E3]; destruct r3 as [[]|e3| | |]; try contradiction; try discriminate Er.
    - assert (s3 = s') by (injection H; auto). subst s3. destruct E2 as [[Q1 Q2 Q3 Q4 Q5] Q6 Q7 Q8 Q9].
      destruct E3 as (n & B1 & B2 & B3 & B4 & _ & _ & B5 & _).
      rewrite Q7, V1w, put_same in B1. injection B1 as <-. apply ev_same.
      + split.
        * intros p. rewrite B3, Q1, V1v. destruct (in_pages_cases (pg / P) (npages t len) p) as [[-> I]|[-> I]]; [symmetry; apply V1e, I|reflexivity].
        * intros a. rewrite B2, Q7, V1w. destruct (Z.eq_dec a pg) as [->|N]; [rewrite put_same; symmetry; apply V1o|].
          rewrite !put_other by exact N. reflexivity.
        * intros a. congruence.
      + exact R.
      + intros o _. left. congruence.
    - assert (s3 = s') by (injection H; auto). subst s3. exact (ev_trans t _ _ _ _ _ W K12 (ev_wq t _ _ E3)).
  Qed.

  Lemma ring_loop_keeps more h len full c : forall s r s', wf (n_w s) -> n_sec s h = Some c -> sc_obj c < w_next (n_w s) -> len <> 0 ->
    ring_loop t more h len full s = (r, s') ->
    keeps t s s' /\ match r with Ret pg => n_view s pg = None /\ n_view s (pg + len) = None | _ => True end.
  Proof.
    induction more as [|more IH]; intros s r s' W Hc Hn Hl H; cbn [ring_loop] in H.
    all: apply wbind_run in H as [(pg & s1 & E1 & H)|[(e & E1 & ->)|[[E1 ->]|[[E1 ->]|[E1 ->]]]]];
      pose proof (reserve_keeps _ _ _ _ E1) as K1; try (split; [exact K1|exact I]).
    all: apply reserve_spec in E1 as (l1 & _ & _ & R1 & S1 & Hf & Rg & Al & F1); try exact Ht; apply range_ok_iff in Rg as (Rg1 & _).
    all: pose proof (ev_wf _ _ _ _ _ _ K1 W) as W1; rewrite <- S1 in Hc; pose proof (ev_next _ _ _ _ _ _ K1) as N1.
    all: assert (Hn1 : sc_obj c < w_next (n_w s1)) by lia.
    all: destruct (map_ring_handle t h len pg s1) as [r2 s2] eqn:E2;
      destruct (map_ring_handle_keeps h len pg s1 r2 s2 c W1 Hc Hn1 Hl Rg1 E2) as (K2 & M2);
      pose proof (ev_trans t _ _ _ _ _ W K1 K2) as K12.
    all: destruct (map_ring_handle_spec t Ht h len pg s1 r2 s2 c Hc Hl Rg1 E2) as (l2 & _ & _ & R2 & M);
      destruct r2 as [a|e2| | |]; try contradiction.
    - assert (X : r = Ret a /\ s' = s2) by (injection H as <- <-; auto). destruct X as [-> ->]. split; [exact K12|].
      destruct M2 as (-> & M1 & M2). split; [exact (keeps_none _ _ _ K1 M1)|exact (keeps_none _ _ _ K1 M2)].
    - assert (X : r = Err e2 /\ s' = s2) by (injection H as <- <-; auto). destruct X as [-> ->]. auto.
    - assert (X : r = Ret a /\ s' = s2) by (injection H as <- <-; auto). destruct X as [-> ->]. split; [exact K12|].
      destruct M2 as (-> & M1 & M2). split; [exact (keeps_none _ _ _ K1 M1)|exact (keeps_none _ _ _ K1 M2)].
    - assert (Hc2 : n_sec s2 h = Some c). { destruct R2 as [[R2 _ _ _ _] _]. rewrite R2. exact Hc. }
      pose proof (ev_next _ _ _ _ _ _ K2) as N2.
      destruct (IH s2 r s' (ev_wf _ _ _ _ _ _ K12 W) Hc2 ltac:(lia) Hl H) as [K3 M3].
      split; [exact (ev_trans t _ _ _ _ _ W K12 K3)|]. destruct r; auto. destruct M3 as [M3 M4]. split; [exact (keeps_none _ _ _ K12 M3)|exact (keeps_none _ _ _ K12 M4)].
  Qed.

  Lemma map_ring_keeps len s r s' : wf (n_w s) -> is_usize t len -> win_map_ring t len s = (r, s') ->
    keeps t s s' /\ match r with Ret pg => n_view s pg = None /\ n_view s (pg + len) = None | _ => True end.
  Proof.
    intros W Hl H. unfold win_map_ring in H. pose proof (bits_half t Ht) as [HB HB0]. pose proof (word_64 t Ht) as H64.
    apply wbind_run in H as [(full & s0 & E0 & H)|[(e & E0 & ->)|[[E0 ->]|[[E0 ->]|[E0 ->]]]]]; unfold wout in E0;
      try (assert (s' = s) by (injection E0; auto); subst s'; split; [apply ev_refl|exact I]).
    assert (Es : s0 = s /\ umul (E:=error) t 2 len = Ret full) by (injection E0; auto). destruct Es as [-> Ef]. clear E0.
    assert (Hfull : 0 <= full < 2 ^ t_bits t /\ (full <> 0 -> len <> 0)).
    { unfold umul, wrap, is_usize in *. destruct ((0 <=? 2 * len) && (2 * len <? 2 ^ t_bits t)) eqn:E.
      - assert (Ef' : 2 * len = full) by (injection Ef; auto). apply andb_prop in E as [E1 E2]. apply Z.leb_le in E1. apply Z.ltb_lt in E2. lia.
      - destruct (t_checks t); [discriminate|]. assert (Ef' : (2 * len) mod 2 ^ t_bits t = full) by (injection Ef; auto).
        pose proof (Z.mod_pos_bound (2 * len) (2 ^ t_bits t) ltac:(lia)). split; [lia|]. intros F ->. apply F. rewrite <- Ef'. apply Z.mod_0_l. lia. }
    destruct Hfull as (Hf1 & Hf2). assert (Hf4 : 0 <= full < 2 ^ 64) by lia.
    apply wbind_run in H as [(h & s1 & E1 & H)|[(e & E1 & ->)|[[E1 ->]|[[E1 ->]|[E1 ->]]]]];
      apply win_call_run in E1; [|destruct E1 as (x & E1 & ->)| | |]; pose proof (create_anon_keeps _ _ _ _ _ Hf4 E1) as K1;
      try (split; [exact K1|exact I]).
    apply (create_anon_spec t _ _ _ _ _ Hf4) in E1 as [_ E1].
    destruct E1 as (C1 & C2 & C3 & (c & C4 & C5 & C6 & C7) & C8 & C9 & _).
    unfold scoped in H. destruct (ring_loop t 5 h len full s1) as [r2 s2] eqn:E2.
    assert (Hc : n_sec s1 h = Some c) by (rewrite C4; apply put_same).
    destruct (ring_loop_keeps 5 h len full c s1 r2 s2 (ev_wf _ _ _ _ _ _ K1 W) Hc ltac:(lia) (Hf2 C3) E2) as [K2 M].
    assert (GH : r = r2 /\ s' = snd (close_handle h s2)) by (injection H as <- <-; auto). destruct GH as [-> ->].
    split; [exact (ev_trans t _ _ _ _ _ W (ev_trans t _ _ _ _ _ W K1 K2) (close_keeps h s2))|].
    destruct r2; auto. destruct M as [M M']. split; [exact (keeps_none _ _ _ K1 M)|exact (keeps_none _ _ _ K1 M')].
  Qed.

  (** ** Maps *)
  Lemma map_anon_keeps len p s r s' : wf (n_w s) -> is_usize t len -> win_map_anon t len p s = (r, s') -> keeps t s s'.
  Proof.
    intros W Hl H. unfold win_map_anon in H. rewrite (surjective_pairing (protect_pair p)) in H. cbv beta iota zeta in H.
    pose proof (word_64 t Ht) as H64. unfold is_usize in Hl. assert (Hl' : 0 <= len < 2 ^ 64) by lia. assert (Z64 : 0 <= 0 < 2 ^ 64) by lia.
    apply wbind_run in H as [(h & s1 & E1 & H)|[(e & E1 & ->)|[[E1 ->]|[[E1 ->]|[E1 ->]]]]];
      apply win_call_run in E1; [|destruct E1 as (x & E1 & ->)| | |]; pose proof (create_anon_keeps _ _ _ _ _ Hl' E1) as K1; try exact K1.
    apply (create_anon_spec t _ _ _ _ _ Hl') in E1 as [_ (C1 & C2 & C3 & (c & C4 & C5 & C6 & C7) & C8 & C9 & _)].
    unfold scoped in H. destruct (handle_view t h MapAnonymousView _ 0 len 0 s1) as [r2 s2] eqn:E2.
    assert (Hc : n_sec s1 h = Some c) by (rewrite C4; apply put_same). assert (Hn : sc_obj c < w_next (n_w s1)) by lia.
    assert (GH : s' = snd (close_handle h s2)) by (injection H as <- <-; auto). subst s'.
    refine (ev_trans t _ _ _ _ _ W (ev_trans t _ _ _ _ _ W K1 _) (close_keeps h s2)).
    apply win_call_run in E2. destruct r2 as [pg|e| | |]; [|destruct E2 as (x & E2 & ->)| | |]; eapply map_view_keeps; eassumption.
  Qed.

  Lemma map_file_keeps fd off len p s r s' : wf (n_w s) -> is_usize t off -> win_map_file t fd off len p s = (r, s') -> keeps t s s'.
  Proof.
    intros W Ho H. unfold win_map_file in H. rewrite (surjective_pairing (protect_pair p)) in H. cbv beta iota zeta in H.
    pose proof (word_64 t Ht) as H64. unfold is_usize in Ho. assert (Ho' : 0 <= off < 2 ^ 64) by lia.
    apply wbind_run in H as [(h & s1 & E1 & H)|[(e & E1 & ->)|[[E1 ->]|[[E1 ->]|[E1 ->]]]]];
      apply win_call_run in E1; [|destruct E1 as (x & E1 & ->)| | |]; pose proof (create_file_keeps _ _ _ _ _ E1) as K1; try exact K1.
    apply create_file_spec in E1 as [_ (C1 & C2 & f & C3 & C4 & C5 & [V1 O1 N1 F1 S1] & _)].
    unfold scoped in H. destruct (handle_view t h MapFileView _ off len 0 s1) as [r2 s2] eqn:E2.
    pose proof (proj2 (wf_fd _ W _ _ C3)) as Hf.
    match type of C5 with _ = put _ _ (Some ?cc) => set (c := cc) in * end.
    assert (Hc : n_sec s1 h = Some c) by (rewrite C5; apply put_same). assert (Hn : sc_obj c < w_next (n_w s1)) by (cbn; lia).
    assert (GH : s' = snd (close_handle h s2)) by (injection H as <- <-; auto). subst s'.
    refine (ev_trans t _ _ _ _ _ W (ev_trans t _ _ _ _ _ W K1 _) (close_keeps h s2)).
    apply win_call_run in E2. destruct r2 as [pg|e| | |]; [|destruct E2 as (x & E2 & ->)| | |]; eapply map_view_keeps; eassumption.
  Qed.

  (** ** Files *)
  Lemma sys_close_keeps fd s : keeps t s (with_w s (snd (sys_close fd (n_w s)))).
  Proof.
    cbn. apply ev_steady; cbn; auto; try lia.
    - intros p e He. exists e. split; [exact He|]. split; [apply kept_refl|auto].
    - intros o [(fd' & f & H & <-)|(q & H)]; left; [left|right; eauto]. cbn in H. unfold put in H.
      destruct (fd' =? fd); [discriminate|eauto].
    - intros W. exact (proj1 (proj2 (close_extends fd _ W))).
  Qed.
End Keep.
