(** Runs of ring allocation on Windows against a kernel whose answers are
    known. *)
From Coq Require Import Lia.
From Verif Require Import Base Spec ErrorModel SizeModel OsModel MapModel MapSpec RingMapModel RingMapSpec SizeProofs OsProofs
  MapProofs MirrorProofs RingMapClaims WinModel WinSpec WinProofs.

(** The answers left; no other thread interferes. *)
Definition left_over (s : win) (o : list answer) : Prop := w_orc (n_w s) = o /\ n_env s = [].

Lemma call_go {A} c (k : Z -> (Z -> bool) -> WT Z A) s a o x s1 : left_over s (Grant a :: o) ->
  k a (fun _ => false) (with_w (with_env s []) (set_orc (n_w s) o)) = (Ret x, s1) ->
  call c k s = (Ret x, with_log s1 ((c, true) :: n_log s1)).
Proof. intros [Ho He] H. unfold call, ask. rewrite He, Ho. cbn [hd tl]. rewrite H. reflexivity. Qed.

Lemma call_refused {A} c (k : Z -> (Z -> bool) -> WT Z A) s e o : left_over s (Refuse e :: o) ->
  exists s', call c k s = (Err e, s') /\ left_over s' o /\ n_last s' = e.
Proof. intros [Ho He]. unfold call, ask. rewrite He, Ho. eexists. split; [reflexivity|]. repeat split; reflexivity. Qed.

Section Win.
  Variable t : target.
  Hypothesis Ht : good_target t.
  Notation P := (t_page t).
  Notation G := (t_alloc t).
  Let HP : 0 < P.
  Proof. exact (pow2_pos _ (proj1 (proj2 Ht))). Qed.
  Let HG : 0 < G.
  Proof. exact (pow2_pos _ (proj1 (proj2 (proj2 Ht)))). Qed.

  Lemma no_one_go s a n : n_view s a = None -> n_resv s a = None ->
    (forall p, a / P <= p < a / P + n -> w_vm (n_w s) p = None) -> no_one t (fun _ => false) s a n = true.
  Proof.
    intros V R F. unfold no_one. rewrite V, R. apply andb_true_intro. split; [exact (proj2 (free_range_iff _ _ _) F)|].
    apply forallb_forall. reflexivity.
  Qed.

  Lemma alloc_go len s a o : left_over s (Grant a :: o) -> 0 < len -> range_ok t a len = true -> a mod G = 0 ->
    n_view s a = None -> n_resv s a = None -> (forall p, a / P <= p < a / P + npages t len -> w_vm (n_w s) p = None) ->
    exists s', virtual_alloc t len s = (Ret a, s') /\ left_over s' o.
  Proof.
    intros Ho Hl Hr Ha V R F. unfold virtual_alloc. eexists. split.
    - eapply call_go; [exact Ho|]. cbv zeta. rewrite (proj2 (Z.leb_gt _ _) Hl), Hr, Ha, no_one_go by assumption. reflexivity.
    - destruct Ho as [_ He]. split; reflexivity.
  Qed.

  Lemma free_go s a x o n : left_over s (Grant x :: o) -> n_resv s a = Some n ->
    exists s', virtual_free t a s = (Ret tt, s') /\ left_over s' o.
  Proof.
    intros Ho R. unfold virtual_free. eexists. split.
    - eapply call_go; [exact Ho|]. cbn [n_resv with_w with_env]. rewrite R. reflexivity.
    - split; reflexivity.
  Qed.
  Lemma unmap_go s a x o n : left_over s (Grant x :: o) -> n_view s a = Some n ->
    exists s', unmap_view t a s = (Ret tt, s') /\ left_over s' o.
  Proof.
    intros Ho R. unfold unmap_view. eexists. split.
    - eapply call_go; [exact Ho|]. cbn [n_view with_w with_env]. rewrite R. reflexivity.
    - split; reflexivity.
  Qed.

  Lemma view_go s h c len a x o : left_over s (Grant x :: o) -> n_sec s h = Some c -> sc_w c = true ->
    0 < len <= sc_size c -> a <> 0 -> a mod G = 0 -> range_ok t a len = true ->
    n_view s a = None -> n_resv s a = None -> (forall p, a / P <= p < a / P + npages t len -> w_vm (n_w s) p = None) ->
    exists s', map_view t h MapReadWrite (hi_dword 0) (lo_dword 0) len a s = (Ret a, s') /\ left_over s' o.
  Proof.
    intros Ho Hc Hw Hl Hn Ha Hr V R F. unfold map_view. change (dwords (hi_dword 0) (lo_dword 0)) with 0. eexists. split.
    - eapply call_go; [exact Ho|]. cbv zeta. cbn [n_sec with_w with_env]. rewrite Hc.
      rewrite (proj2 (Z.eqb_neq a 0) Hn). rewrite (proj2 (Z.eqb_neq len 0)) by lia. rewrite Z.mod_0_l, Ha by lia.
      cbn [Z.eqb negb orb Z.add]. rewrite (proj2 (Z.leb_gt len 0)), (proj2 (Z.ltb_ge (sc_size c) len)) by lia. cbn [orb].
      rewrite Hw, Hr, no_one_go by assumption. cbn [negb orb]. reflexivity.
    - split; reflexivity.
  Qed.

  Lemma create_go s h size o : left_over s (Grant h :: o) -> n_sec s h = None -> 0 < h -> 0 < size < 2 ^ 64 -> P * npages t size < 2 ^ 64 ->
    exists s', create_mapping t None PageReadWrite (hi_dword size) (lo_dword size) s = (Ret h, s') /\ left_over s' o.
  Proof.
    intros Ho Hs Hh Hz Hz2. unfold create_mapping. rewrite dwords_split by lia. eexists. split.
    - eapply call_go; [exact Ho|]. cbv zeta. cbn [n_sec with_w with_env]. rewrite Hs.
      rewrite (proj2 (Z.leb_gt h 0) Hh). rewrite (proj2 (Z.eqb_neq size 0)) by lia. rewrite (proj2 (Z.leb_gt _ _) Hz2). reflexivity.
    - split; reflexivity.
  Qed.

  (** Places survive calls that restore the address space. *)
  Lemma place_same s s' len a : same_space s s' -> place t s len a -> place t s' len a.
  Proof.
    intros [A B C] [D E F I [J K] [L M]]. split; try assumption.
    - intros p Hp. rewrite A. apply I, Hp.
    - rewrite B, C. auto.
    - rewrite B, C. auto.
  Qed.

  Section Round.
    Variables (h n : Z) (c : section).
    Hypothesis Hn : 0 < n.
    Hypothesis Hu : (G | P * n).
    Hypothesis Hw : sc_w c = true.
    Hypothesis Hs : P * n <= sc_size c.
    Notation len := (P * n).

    Lemma place_pages s a : place t s len a -> a mod P = 0 /\ (forall p, a / P <= p < a / P + 2 * n -> w_vm (n_w s) p = None) /\
      (a + len) / P = a / P + n /\ (a + len) mod G = 0 /\ range_ok t a (2 * len) = true /\ range_ok t a len = true /\ range_ok t (a + len) len = true.
    Proof.
      intros [A B C D _ _]. pose proof (aligned_page t Ht _ A) as M. split; [exact M|]. split.
      { intros p Hp. apply D. pose proof (page_in t Ht a n (P * p) Hn M) as J.
        rewrite (Z.mul_comm P p), Z.div_mul, (Z.mul_comm p) in J by lia. apply J, Hp. }
      split. { rewrite (Z.mul_comm P n), Z.div_add by lia. reflexivity. }
      assert (MG : (a + len) mod G = 0). { destruct Hu as (q & Eq). rewrite Eq, Z.mod_add by lia. exact A. }
      split; [exact MG|]. pose proof (aligned_page t Ht _ MG) as M2. pose proof (npages_mul t HP n) as N1.
      assert (N2 : npages t (2 * len) = 2 * n) by (replace (2 * len) with (P * (2 * n)) by lia; apply npages_mul, HP).
      repeat split; apply range_ok_iff; rewrite ?N1, ?N2; repeat split; try assumption; nia.
    Qed.

    Lemma reserve_go s a x o : left_over s (Grant a :: Grant x :: o) -> place t s len a ->
      exists s', reserve t (2 * len) s = (Ret a, s') /\ left_over s' o /\ same_space s s' /\ n_sec s' = n_sec s.
    Proof.
      intros Ho Hp. destruct (place_pages s a Hp) as (M & F & _ & _ & R & _). destruct Hp as [A B C D [E1 E2] _].
      assert (N2 : npages t (2 * len) = 2 * n) by (replace (2 * len) with (P * (2 * n)) by lia; apply npages_mul, HP).
      destruct (alloc_go (2 * len) s a _ Ho ltac:(nia) R A E1 E2 ltac:(rewrite N2; exact F)) as (s1 & X1 & O1).
      pose proof (alloc_spec t _ _ _ _ X1) as (L1 & _ & _ & _ & _ & _ & _ & _ & RV & _).
      destruct (free_go s1 a x o (npages t (2 * len)) O1 ltac:(rewrite RV; apply put_same)) as (s2 & X2 & O2).
      pose proof (free_spec t _ _ _ _ X2) as (L2 & _).
      assert (X : reserve t (2 * len) s = (Ret a, s2)).
      { unfold reserve, wbind, win_call, no_result. rewrite X1, X2. reflexivity. }
      exists s2. split; [exact X|]. split; [exact O2|].
      destruct (reserve_spec t _ _ _ _ X) as (l & Lc & _ & _ & Sc & _ & _ & _ & [FR|SS]); [|split; assumption].
      exfalso. unfold calls in Lc. rewrite L2, L1 in Lc.
      assert (El : l = [(WRelease a, true); (WReserve, true)]).
      { apply (app_inv_tail (n_log s)). rewrite <- Lc. reflexivity. }
      subst l. destruct FR as (y & [[Z|[Z|[]]]|[Z|[Z|[]]]]); discriminate.
    Qed.

    Lemma won s a x y o : left_over s (Grant x :: Grant y :: o) -> place t s len a -> n_sec s h = Some c ->
      exists s', map_ring_handle t h len a s = (Ret a, s') /\ left_over s' o.
    Proof.
      intros Ho Hp Hc. destruct (place_pages s a Hp) as (M & F & Eh & MG & _ & R1 & R2). destruct Hp as [A B C D [E1 E2] [E3 E4]].
      pose proof (npages_mul t HP n) as N1.
      destruct (view_go s h c len a x _ Ho Hc Hw ltac:(nia) ltac:(lia) A R1 E1 E2 ltac:(rewrite N1; intros p Hp; apply F; lia)) as (s1 & X1 & O1).
      pose proof (map_view_spec t h MapReadWrite 0 len a s _ _ ltac:(lia) X1) as (_ & _ & c1 & Ec & _ & V).
      rewrite Hc in Ec. injection Ec as <-. rewrite (proj2 (Z.eqb_neq len 0)) in V by nia.
      destruct V as [_ _ _ _ _ _ _ V1 V2 V3 V4 _ _ _ _ _].
      destruct (view_go s1 h c len (a + len) y _ O1 ltac:(congruence) Hw ltac:(nia) ltac:(nia) MG R2
        ltac:(rewrite V2, put_other by nia; exact E3) ltac:(congruence)
        ltac:(rewrite Eh, N1; intros p Hp; rewrite V1, N1, in_pages_no by lia; apply F; lia)) as (s2 & X2 & O2).
      exists s2. split; [|exact O2]. unfold map_ring_handle, wbind, handle_view, win_call. rewrite X1.
      assert (PA : ptr_add t a len = a + len).
      { unfold ptr_add, as_usize. apply Z.mod_small. nia. }
      rewrite PA, X2. reflexivity.
    Qed.

    Lemma lose s r o : left_over s (lost_answers r ++ o) -> place t s len (lost_at r) -> n_sec s h = Some c ->
      exists s' s1, reserve t (2 * len) s = (Ret (lost_at r), s1) /\ map_ring_handle t h len (lost_at r) s1 = (Err (lost_error r), s') /\
        left_over s' o /\ same_space s s' /\ n_sec s' h = Some c.
    Proof.
      intros Ho Hp Hc. destruct r as [a x e|a x y e z]; cbn [lost_answers lost_at lost_error app] in *.
      - destruct (reserve_go s a x _ Ho Hp) as (s1 & X0 & O0 & SS & Sc).
        assert (X1 : exists s2, map_view t h MapReadWrite (hi_dword 0) (lo_dword 0) len a s1 = (Err e, s2) /\
          left_over s2 o /\ n_last s2 = e) by (unfold map_view; apply call_refused; exact O0).
        destruct X1 as (s2 & X1 & O1 & La).
        exists s2, s1. split; [exact X0|]. split.
        { unfold map_ring_handle, wbind, handle_view, win_call. rewrite X1, La. reflexivity. }
        split; [exact O1|]. apply (map_view_spec t) in X1 as [_ Q]; [|lia]. split; [exact (same_space_trans _ _ _ SS (wq_space _ _ Q))|].
        rewrite (wq_sec _ _ Q), Sc. exact Hc.
      - destruct (reserve_go s a x _ Ho Hp) as (s1 & X0 & O0 & SS & Sc).
        pose proof (place_same _ _ _ _ SS Hp) as Hp1. rewrite <- Sc in Hc.
        destruct (place_pages s1 a Hp1) as (M & F & Eh & MG & _ & R1 & R2). destruct Hp1 as [A B C D [E1 E2] [E3 E4]].
        pose proof (npages_mul t HP n) as N1.
        destruct (view_go s1 h c len a y _ O0 Hc Hw ltac:(nia) ltac:(lia) A R1 E1 E2 ltac:(rewrite N1; intros p Hp'; apply F; lia)) as (s2 & X1 & O1).
        pose proof (map_view_spec t h MapReadWrite 0 len a s1 _ _ ltac:(lia) X1) as (_ & _ & c1 & Ec & _ & V).
        rewrite Hc in Ec. injection Ec as <-. rewrite (proj2 (Z.eqb_neq len 0)) in V by nia.
        assert (X2 : exists s3, map_view t h MapReadWrite (hi_dword 0) (lo_dword 0) len (a + len) s2 = (Err e, s3) /\
          left_over s3 (Grant z :: o) /\ n_last s3 = e) by (unfold map_view; apply call_refused; exact O1).
        destruct X2 as (s3 & X2 & O2 & La).
        pose proof (map_view_spec t h MapReadWrite 0 len (a + len) s2 _ _ ltac:(lia) X2) as (L2 & Q2).
        destruct (unmap_go s3 a z o n O2) as (s4 & X3 & O3).
        { rewrite (wq_view _ _ Q2), (vw_view _ _ _ _ _ _ _ _ V), N1. apply put_same. }
        assert (PA : ptr_add t a len = a + len).
        { unfold ptr_add, as_usize. apply Z.mod_small. nia. }
        assert (X : map_ring_handle t h len a s1 = (Err (last_os_error RingSecondary e), s4)).
        { unfold map_ring_handle, wbind, handle_view, win_call, no_result. rewrite X1, PA, X2, X3, La. reflexivity. }
        exists s4, s1. split; [exact X0|]. split; [exact X|]. split; [exact O3|].
        pose proof (unmap_view_spec t _ _ _ _ X3) as (L3 & U).
        pose proof (map_view_spec t h MapReadWrite 0 len a s1 _ _ ltac:(lia) X1) as (L1 & _).
        destruct (map_ring_handle_spec t Ht h len a s1 _ _ c Hc ltac:(nia) B X) as (l & Lc & _ & [[RS _ _ _ _] _] & _ & [FR|SS2]).
        2:{ split; [exact (same_space_trans _ _ _ SS SS2)|]. rewrite RS. exact Hc. }
        exfalso. unfold calls in Lc. rewrite L3, L2, L1 in Lc.
        assert (El : l = [(WUnmap a, true); (WMap (a + len), false); (WMap a, true)]).
        { apply (app_inv_tail (n_log s1)). rewrite <- Lc. reflexivity. }
        subst l. destruct FR as (w & [[Z|[Z|[Z|[]]]]|[Z|[Z|[Z|[]]]]]); discriminate.
    Qed.

    Lemma loop_won rs : forall more s pg x y z o, (length rs <= more)%nat ->
      left_over s (flat_map lost_answers rs ++ Grant pg :: Grant x :: Grant y :: Grant z :: o) ->
      Forall (fun r => place t s len (lost_at r)) rs -> place t s len pg -> n_sec s h = Some c ->
      exists s', ring_loop t more h len (2 * len) s = (Ret pg, s').
    Proof.
      induction rs as [|r rs IH]; intros more s pg x y z o Hm Ho Hr Hp Hc.
      - cbn [flat_map app] in Ho. destruct (reserve_go s pg x _ Ho Hp) as (s1 & X0 & O0 & SS & Sc).
        destruct (won s1 pg y z o O0 (place_same _ _ _ _ SS Hp) ltac:(congruence)) as (s2 & X1 & _).
        exists s2. destruct more; cbn [ring_loop]; unfold wbind; rewrite X0, X1; reflexivity.
      - cbn [flat_map] in Ho. rewrite <- app_assoc in Ho. apply Forall_cons_iff in Hr as [Hr0 Hr].
        destruct (lose s r _ Ho Hr0 Hc) as (s2 & s1 & X0 & X1 & O1 & SS & Hc2).
        destruct more as [|more]; [cbn in Hm; lia|].
        destruct (IH more s2 pg x y z o ltac:(cbn in Hm; lia) O1) as (s' & X2).
        { eapply Forall_impl; [|exact Hr]. intros q Hq. exact (place_same _ _ _ _ SS Hq). }
        { exact (place_same _ _ _ _ SS Hp). }
        { exact Hc2. }
        exists s'. cbn [ring_loop]. unfold wbind. rewrite X0, X1. exact X2.
    Qed.

    Lemma loop_lost rs : forall more s d o, length rs = S more ->
      left_over s (flat_map lost_answers rs ++ o) ->
      Forall (fun r => place t s len (lost_at r)) rs -> n_sec s h = Some c ->
      exists s', ring_loop t more h len (2 * len) s = (Err (lost_error (last rs d)), s') /\ left_over s' o.
    Proof.
      induction rs as [|r rs IH]; intros more s d o Hm Ho Hr Hc; [discriminate|].
      cbn [flat_map] in Ho. rewrite <- app_assoc in Ho. apply Forall_cons_iff in Hr as [Hr0 Hr].
      destruct (lose s r _ Ho Hr0 Hc) as (s2 & s1 & X0 & X1 & O1 & SS & Hc2). cbn [length] in Hm. injection Hm as Hm.
      destruct more as [|more].
      - destruct rs; [|discriminate]. exists s2. cbn [ring_loop]. unfold wbind. rewrite X0, X1. split; [reflexivity|exact O1].
      - destruct (IH more s2 d o Hm O1) as (s' & X2 & O2).
        { eapply Forall_impl; [|exact Hr]. intros q Hq. exact (place_same _ _ _ _ SS Hq). }
        { exact Hc2. }
        exists s'. cbn [ring_loop]. unfold wbind. rewrite X0, X1. split; [|exact O2].
        destruct rs; [discriminate Hm|]. exact X2.
    Qed.
  End Round.

  Lemma map_ring_go n s h : 0 < P * n < 2 ^ (t_bits t - 1) -> (G | P * n) -> n_sec s h = None -> 0 < h ->
    forall rs d o, Forall (fun r => place t s (P * n) (lost_at r)) rs ->
    (forall pg x y z, (length rs <= 5)%nat -> place t s (P * n) pg ->
       left_over s (Grant h :: flat_map lost_answers rs ++ Grant pg :: Grant x :: Grant y :: Grant z :: o) ->
       fst (win_map_ring t (P * n) s) = Ret pg) /\
    (length rs = 6%nat -> left_over s (Grant h :: flat_map lost_answers rs ++ o) ->
       fst (win_map_ring t (P * n) s) = Err (lost_error (last rs d)) /\ left_over (snd (win_map_ring t (P * n) s)) o).
  Proof.
    intros Hl Hu Hs Hh rs d o Hr. pose proof (bits_half t Ht) as [HB HB0]. pose proof (word_64 t Ht) as H64.
    assert (EM : umul (E:=error) t 2 (P * n) = Ret (2 * (P * n))).
    { unfold umul. apply wrap_in. lia. }
    assert (n0 : 0 < n) by nia.
    assert (C : forall o', left_over s (Grant h :: o') -> exists s1 c,
      create_mapping t None PageReadWrite (hi_dword (2 * (P * n))) (lo_dword (2 * (P * n))) s = (Ret h, s1) /\ left_over s1 o' /\
      same_space s s1 /\ n_sec s1 h = Some c /\ sc_w c = true /\ P * n <= sc_size c).
    { intros o' Ho. assert (EN : P * npages t (2 * (P * n)) < 2 ^ 64).
      { replace (2 * (P * n)) with (P * (2 * n)) by lia. rewrite (npages_mul t HP). lia. }
      destruct (create_go s h (2 * (P * n)) o' Ho Hs Hh ltac:(lia) EN) as (s1 & X & O1).
      pose proof (create_anon_spec t PageReadWrite (2 * (P * n)) s _ _ ltac:(lia) X) as (_ & _ & _ & _ & (c & C1 & C2 & C3 & C4) & _ & _ & C5 & _ & _ & C6 & C7 & _).
      exists s1, c. split; [exact X|]. split; [exact O1|]. split; [split; intros; congruence|]. split; [rewrite C1; apply put_same|]. split; [exact C4|].
      rewrite C3. pose proof (npages_bounds t HP (2 * (P * n))). lia. }
    split.
    - intros pg x y z L5 Hp Ho. destruct (C _ Ho) as (s1 & c & X & O1 & SS & Hc & Cw & Cs).
      destruct (loop_won h n c n0 Hu Cw Cs rs 5 s1 pg x y z o L5 O1) as (s' & X2).
      { eapply Forall_impl; [|exact Hr]. intros q Hq. exact (place_same _ _ _ _ SS Hq). }
      { exact (place_same _ _ _ _ SS Hp). }
      { exact Hc. }
      unfold win_map_ring, wbind, wout, handle_new, win_call. rewrite EM, X. unfold scoped. rewrite X2. reflexivity.
    - intros L6 Ho. destruct (C _ Ho) as (s1 & c & X & O1 & SS & Hc & Cw & Cs).
      destruct (loop_lost h n c n0 Hu Cw Cs rs 5 s1 d o L6 O1) as (s' & X2 & O2).
      { eapply Forall_impl; [|exact Hr]. intros q Hq. exact (place_same _ _ _ _ SS Hq). }
      { exact Hc. }
      unfold win_map_ring, wbind, wout, handle_new, win_call. rewrite EM, X. unfold scoped. rewrite X2. split; [reflexivity|]. exact O2.
  Qed.
End Win.
