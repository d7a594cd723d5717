(** What programs on Windows leave behind. *)
From Coq Require Import Lia.
From Verif Require Import Base Spec ErrorModel SizeModel OsModel MapModel MapSpec RingMapModel RingMapSpec SizeProofs OsProofs
  MapProofs MapCreate MapOps MirrorProofs RingMapClaims MemRingModel ProcModel ProcFrame ProcProofs ProcPages
  WinModel WinSpec WinProofs WinClaims WinCalls WinMapModel WinMapSpec WinSpace WinOthers WinKeep WinMapProofs WinAlloc WinThings WinHist WinLeak
  WinMapClaims WinProcModel WinProcSpec WinProcProofs WinLedgerSpec.

(** The same pages, views and reservations. *)
Record alike (s s' : win) : Prop := {
  al_dom : dom (n_w s) (n_w s');
  al_view : forall a, n_view s' a = n_view s a;
  al_resv : forall a, n_resv s' a = n_resv s a
}.
Lemma alike_refl s : alike s s.
Proof. split; auto. apply dom_refl. Qed.
Lemma alike_trans s1 s2 s3 : alike s1 s2 -> alike s2 s3 -> alike s1 s3.
Proof. intros [A1 A2 A3] [B1 B2 B3]. split; [exact (dom_trans _ _ _ A1 B1)| |]; intros a; congruence. Qed.

Section Tiles.
  Variable t : target.
  Variable s0 : win.
  Notation P := (t_page t).
  Notation region := (region s0).
  Notation tiled := (tiled t s0).

  Definition goes (s s' : win) : Prop :=
    tiled s -> tiled s' /\ forall a n, n_resv s a = Some n -> n_resv s' a = Some n.
  Lemma goes_refl s : goes s s.
  Proof. intros T. auto. Qed.
  Lemma goes_trans s1 s2 s3 : goes s1 s2 -> goes s2 s3 -> goes s1 s3.
  Proof. intros A B T. destruct (A T) as [T2 K2]. destruct (B T2) as [T3 K3]. split; auto. Qed.
  Lemma region_same s s' a n : n_view s' a = n_view s a -> n_resv s' a = n_resv s a -> (region s' a n <-> region s a n).
  Proof. intros A B. unfold WinLedgerSpec.region, left_resv. rewrite A, B. reflexivity. Qed.
  Lemma alike_goes s s' : alike s s' -> goes s s'.
  Proof.
    intros [A1 A2 A3] [T1 T2 T3 T4]. assert (R : forall a n, region s' a n <-> region s a n) by (intros; apply region_same; auto).
    split; [split|].
    - intros p. rewrite (A1 p), T1. split; intros (a & n & H & I); exists a, n; (split; [apply R, H|exact I]).
    - intros a n b m p H1 H2. apply R in H1, H2. eauto.
    - intros a n H. rewrite A2 in H. rewrite A3. eauto.
    - intros a n H. rewrite A3. auto.
    - intros a n H. rewrite A3. auto.
  Qed.

  Definition goesly {E A} (m : WT E A) : Prop := forall s, goes s (snd (m s)).
  Definition alikely {E A} (m : WT E A) : Prop := forall s, alike s (snd (m s)).
  Lemma alikely_goes {E A} (m : WT E A) : alikely m -> goesly m.
  Proof. intros H s. apply alike_goes, H. Qed.
  Lemma goesly_out {E A} (x : out E A) : goesly (wout x).
  Proof. intros s. apply goes_refl. Qed.
  Lemma goesly_bind {E A B} (m : WT E A) (k : A -> WT E B) : goesly m -> (forall a, goesly (k a)) -> goesly (wbind m k).
  Proof.
    intros H K s. unfold wbind. specialize (H s). destruct (m s) as [[a|e| | |] s1]; cbn in *; try exact H.
    exact (goes_trans _ _ _ H (K a s1)).
  Qed.
  Lemma goesly_call {A} c (k : Z -> (Z -> bool) -> WT Z A) : (forall a f, goesly (k a f)) -> goesly (call c k).
  Proof.
    intros H s. unfold call, ask.
    assert (L : forall (r : out Z A) s1, goes s s1 -> goes s (snd (match r with
      | Ret x => (Ret x, with_log s1 ((c, true) :: n_log s1))
      | Err e => (Err e, with_last (with_log s1 ((c, false) :: n_log s1)) e)
      | x => (x, s1) end))).
    { intros r s1 G. destruct r; cbn [snd]; try exact G; refine (goes_trans _ _ _ G (alike_goes _ _ _)); (split; [apply dom_eq; reflexivity| |]; reflexivity). }
    set (f := hd (fun _ => false) (n_env s)). destruct (w_orc (n_w s)) as [|[e|a] o].
    - refine (L (Err ENOMEM) (with_w (with_env s (tl (n_env s))) (n_w s)) (alike_goes _ _ _)). split; [apply dom_eq; reflexivity| |]; reflexivity.
    - refine (L (Err e) (with_w (with_env s (tl (n_env s))) (set_orc (n_w s) o)) (alike_goes _ _ _)). split; [apply dom_eq; reflexivity| |]; reflexivity.
    - set (s1 := with_w (with_env s (tl (n_env s))) (set_orc (n_w s) o)).
      assert (A1 : goes s s1) by (apply alike_goes; split; [apply dom_eq; reflexivity| |]; reflexivity).
      pose proof (H a f s1) as H1. destruct (k a f s1) as [r s2]. exact (L r s2 (goes_trans _ _ _ A1 H1)).
  Qed.
  Lemma goesly_win {A} op (m : WT Z A) : goesly m -> goesly (win_call op m).
  Proof. intros H s. specialize (H s). unfold win_call. destruct (m s) as [[a|e| | |] s1]; exact H. Qed.
  Lemma goesly_none {A} (m : WT Z A) : goesly m -> goesly (no_result m).
  Proof. intros H s. specialize (H s). unfold no_result. destruct (m s) as [[a|e| | |] s1]; exact H. Qed.
  Lemma goesly_lift {E A} (m : ST E A) : domly m -> goesly (lift m).
  Proof.
    intros H s. unfold lift. specialize (H (n_w s)). destruct (m (n_w s)) as [r w]. apply alike_goes. split; auto.
  Qed.

  (** ** The kernel calls *)
  Lemma no_one_free f s a n : no_one t f s a n = true -> n_view s a = None /\ n_resv s a = None /\
    forall p, in_view t a n p -> w_vm (n_w s) p = None.
  Proof.
    unfold no_one. destruct (n_view s a); [discriminate|]. destruct (n_resv s a); [discriminate|]. intros H. split; [reflexivity|]. split; [reflexivity|].
    apply andb_true_iff in H as [H _]. intros p Ip. unfold free_range in H. rewrite forallb_forall in H.
    assert (In p (page_seq (a / P) n)).
    { unfold page_seq. apply in_map_iff. unfold in_view in Ip. exists (Z.to_nat (p - a / P)). split; [lia|]. apply in_seq. lia. }
    specialize (H p H0). destruct (w_vm (n_w s) p); [discriminate H|reflexivity].
  Qed.
  (** A region more. *)
  Lemma tiled_more s s' a n : tiled s -> n_view s a = None -> n_resv s a = None -> (forall p, in_view t a n p -> w_vm (n_w s) p = None) ->
    (forall p, w_vm (n_w s') p <> None <-> in_view t a n p \/ w_vm (n_w s) p <> None) ->
    (forall b, b <> a -> n_view s' b = n_view s b /\ n_resv s' b = n_resv s b) ->
    (n_view s' a = Some n /\ n_resv s' a = None) \/ (n_view s' a = None /\ n_resv s' a = Some n) ->
    tiled s' /\ forall b m, n_resv s b = Some m -> n_resv s' b = Some m.
  Proof.
    intros [T1 T2 T3 T4] V0 R0 Fr Vm Ot New.
    assert (O : n_resv s0 a = None) by (destruct (n_resv s0 a) as [m|] eqn:E; [rewrite (T4 _ _ E) in R0; discriminate R0|reflexivity]).
    assert (Ra : forall m, region s' a m <-> m = n).
    { intros m. unfold WinLedgerSpec.region, left_resv. destruct New as [[-> ->]|[-> ->]]; split; try (intros ->; auto); intros [H|[_ H]]; congruence. }
    assert (Rb : forall b m, b <> a -> (region s' b m <-> region s b m)) by (intros b m N; destruct (Ot b N); apply region_same; auto).
    assert (Ro : forall m, ~ region s a m) by (intros m [H|[_ H]]; congruence).
    split; [split|].
    - intros p. rewrite Vm, T1. split.
      + intros [H|(b & m & H & I)]; [exists a, n; split; [apply Ra; reflexivity|exact H]|]. exists b, m. split; [|exact I].
        apply Rb; [|exact H]. intros ->. exact (Ro _ H).
      + intros (b & m & H & I). destruct (Z.eq_dec b a) as [->|N]; [apply Ra in H; subst m; auto|]. right. exists b, m. split; [apply Rb in H; assumption|exact I].
    - assert (Hx : forall b m p, b <> a -> region s' b m -> in_view t b m p -> in_view t a n p -> False).
      { intros b m p N H I1 I2. apply Rb in H; [|exact N]. apply (proj2 (T1 p)); [eauto|]. exact (Fr p I2). }
      intros b m c k p H1 H2 I1 I2. destruct (Z.eq_dec b a) as [->|N1], (Z.eq_dec c a) as [->|N2]; [reflexivity| | |].
      + apply Ra in H1. subst m. destruct (Hx c k p N2 H2 I2 I1).
      + apply Ra in H2. subst k. destruct (Hx b m p N1 H1 I1 I2).
      + apply Rb in H1; [|exact N1]. apply Rb in H2; [|exact N2]. eauto.
    - intros b m H. destruct (Z.eq_dec b a) as [->|N]; [destruct New as [[_ E]|[E _]]; congruence|]. destruct (Ot b N) as [E1 E2]. rewrite E1 in H. rewrite E2. eauto.
    - intros b m H. destruct (Z.eq_dec b a) as [->|N]; [congruence|]. destruct (Ot b N) as [_ E2]. rewrite E2. auto.
    - intros b m H. destruct (Z.eq_dec b a) as [->|N]; [congruence|]. destruct (Ot b N) as [_ E2]. rewrite E2. auto.
  Qed.
  (** A region less. *)
  Lemma tiled_less s s' a n : tiled s -> region s a n -> n_view s a <> None \/ n_resv s0 a = None ->
    (forall p, w_vm (n_w s') p <> None <-> w_vm (n_w s) p <> None /\ ~ in_view t a n p) ->
    (forall b, b <> a -> n_view s' b = n_view s b /\ n_resv s' b = n_resv s b) ->
    n_view s' a = None -> n_resv s' a = None -> tiled s'.
  Proof.
    intros [T1 T2 T3 T4] Ra Old Vm Ot V R.
    assert (Rb : forall b m, b <> a -> (region s' b m <-> region s b m)) by (intros b m N; destruct (Ot b N); apply region_same; auto).
    assert (Ro : forall m, ~ region s' a m) by (intros m [H|[_ H]]; congruence).
    assert (O : n_resv s0 a = None).
    { destruct Old as [Old|Old]; [|exact Old]. destruct (n_view s a) as [k|] eqn:E; [|contradiction]. apply T3 in E.
      destruct (n_resv s0 a) eqn:E0; [rewrite (T4 _ _ E0) in E; discriminate E|reflexivity]. }
    assert (Un : forall m, region s a m -> m = n).
    { intros m H. unfold WinLedgerSpec.region, left_resv in *. destruct (n_view s a) as [k|] eqn:E.
      - rewrite (T3 _ _ E) in *. destruct H as [H|[_ H]], Ra as [X|[_ X]]; congruence.
      - destruct H as [H|[_ H]], Ra as [X|[_ X]]; congruence. }
    split.
    - intros p. rewrite Vm, T1. split.
      + intros [(b & m & H & I) N]. exists b, m. split; [|exact I]. apply Rb; [|exact H]. intros ->. rewrite (Un _ H) in I. contradiction.
      + intros (b & m & H & I). destruct (Z.eq_dec b a) as [->|N]; [destruct (Ro _ H)|]. apply Rb in H; [|exact N]. split; [eauto|].
        intros I2. apply N. eauto.
    - intros b m c k p H1 H2 I1 I2. destruct (Z.eq_dec b a) as [->|N1]; [destruct (Ro _ H1)|]. destruct (Z.eq_dec c a) as [->|N2]; [destruct (Ro _ H2)|].
      apply Rb in H1; [|exact N1]. apply Rb in H2; [|exact N2]. eauto.
    - intros b m H. destruct (Z.eq_dec b a) as [->|N]; [exact R|]. destruct (Ot b N) as [E1 E2]. rewrite E1 in H. rewrite E2. eauto.
    - intros b m H. destruct (Z.eq_dec b a) as [->|N]; [congruence|]. destruct (Ot b N) as [_ E2]. rewrite E2. auto.
  Qed.
  Lemma pages_more s (w : world) a n e : (forall p, w_vm w p = if in_pages (a / P) n p then Some (e p) else w_vm (n_w s) p) ->
    forall p, w_vm w p <> None <-> in_view t a n p \/ w_vm (n_w s) p <> None.
  Proof.
    intros H p. rewrite H. unfold in_view. destruct (in_pages_cases (a / P) n p) as [[-> I]|[-> I]]; [|tauto]. split; [auto|]. intros _. discriminate.
  Qed.
  Lemma pages_less s a n : forall p, w_vm (n_w (drop_pages (a / P) n s)) p <> None <-> w_vm (n_w s) p <> None /\ ~ in_view t a n p.
  Proof.
    intros p. cbn. unfold in_view. destruct (in_pages_cases (a / P) n p) as [[-> I]|[-> I]]; tauto.
  Qed.
  Lemma goesly_map h acc hi lo len at_ : goesly (map_view t h acc hi lo len at_).
  Proof.
    apply goesly_call. intros a f s. cbv zeta. destruct (n_sec s h) as [c|]; [|apply goes_refl]. set (base := if at_ =? 0 then a else at_).
    set (off := dwords hi lo). set (n := npages t _). destruct (_ || _); [apply goes_refl|]. destruct (_ || _); [apply goes_refl|].
    destruct (match acc with MapReadWrite => _ | _ => _ end); [apply goes_refl|]. destruct (negb _ || negb (no_one _ _ _ _ _)) eqn:E; [apply goes_refl|].
    apply orb_false_iff in E as [_ E]. apply negb_false_iff, no_one_free in E as (E1 & E2 & E3). intros T. cbn [snd].
    apply (tiled_more s _ base n T E1 E2 E3).
    - apply (pages_more s _ base n (fun p => entry (sc_obj c) (off / P + (p - base / P)) (access_prot acc) (access_shared acc) (sc_w c || negb (access_shared acc)))).
      intros p. reflexivity.
    - intros b N. cbn. rewrite put_other by exact N. auto.
    - left. cbn. rewrite put_same. auto.
  Qed.
  Lemma goesly_unmap a : goesly (unmap_view t a).
  Proof.
    apply goesly_call. intros _ _ s. destruct (n_view s a) as [n|] eqn:E; [|apply goes_refl]. intros T. cbn [snd]. split; [|auto].
    pose proof (td_one _ _ _ T _ _ E) as R.
    apply (tiled_less s _ a n T (or_introl E)); [left; congruence| | | |].
    - exact (pages_less s a n).
    - intros b N. cbn. rewrite put_other by exact N. auto.
    - cbn. apply put_same.
    - exact R.
  Qed.
  Lemma goesly_alloc len : goesly (virtual_alloc t len).
  Proof.
    apply goesly_call. intros a f s. cbv zeta. destruct (len <=? 0); [apply goes_refl|]. destruct (negb _ || _ || negb (no_one _ _ _ _ _)) eqn:E; [apply goes_refl|].
    apply orb_false_iff in E as [_ E]. apply negb_false_iff, no_one_free in E as (E1 & E2 & E3). intros T. cbn [snd].
    apply (tiled_more s _ a (npages t len) T E1 E2 E3).
    - apply (pages_more s _ a (npages t len) (fun _ => entry (w_next (n_w s)) 0 {| pr_r := false; pr_w := false; pr_x := false |} false false)).
      intros p. reflexivity.
    - intros b N. cbn. rewrite put_other by exact N. auto.
    - right. cbn. rewrite put_same. auto.
  Qed.
  (** What [call] adds around a kernel call. *)
  Lemma call_run {A} c (k : Z -> (Z -> bool) -> WT Z A) s : exists s1, alike s s1 /\ n_sec s1 = n_sec s /\
    ((exists e, fst (call c k s) = Err e /\ alike s1 (snd (call c k s)) /\ n_sec (snd (call c k s)) = n_sec s1) \/
     exists a f, fst (call c k s) = fst (k a f s1) /\ alike (snd (k a f s1)) (snd (call c k s)) /\ n_sec (snd (call c k s)) = n_sec (snd (k a f s1))).
  Proof.
    unfold call, ask. set (f := hd (fun _ => false) (n_env s)). destruct (w_orc (n_w s)) as [|[e|a] o].
    - exists s. split; [apply alike_refl|]. split; [reflexivity|]. left. exists ENOMEM. split; [reflexivity|]. split; [|reflexivity]. split; [apply dom_refl| |]; reflexivity.
    - exists s. split; [apply alike_refl|]. split; [reflexivity|]. left. exists e. split; [reflexivity|]. split; [|reflexivity]. split; [apply dom_eq; reflexivity| |]; reflexivity.
    - exists (with_w (with_env s (tl (n_env s))) (set_orc (n_w s) o)). split; [split; [apply dom_eq; reflexivity| |]; reflexivity|]. split; [reflexivity|].
      right. exists a, f. destruct (k a f _) as [r s2]. destruct r; (split; [reflexivity|]); (split; [|reflexivity]); split; try (intros; reflexivity); apply dom_eq; reflexivity.
  Qed.
  Lemma alloc_ret len s a s' : virtual_alloc t len s = (Ret a, s') -> n_resv s a = None /\ n_view s a = None.
  Proof.
    intros H. unfold virtual_alloc in H.
    match type of H with call ?c ?k s = _ => destruct (call_run c k s) as (s1 & [_ Av Ar] & _ & [(e & E & _)|(b & f & E & _)]) end; rewrite H in E; [discriminate E|].
    cbv zeta in E. cbn [fst] in E. destruct (len <=? 0); [discriminate E|]. destruct (negb _ || _ || negb _) eqn:F; [discriminate E|].
    apply orb_false_iff in F as [_ F]. apply negb_false_iff, no_one_free in F as (F1 & F2 & _). cbn in E. injection E as <-.
    rewrite <- Ar, <- Av. auto.
  Qed.
  Lemma free_goes a s : n_resv s0 a = None -> tiled s ->
    tiled (snd (virtual_free t a s)) /\ forall b n, b <> a -> n_resv s b = Some n -> n_resv (snd (virtual_free t a s)) b = Some n.
  Proof.
    intros O T. unfold virtual_free. match goal with |- context [call ?c ?k s] => destruct (call_run c k s) as (s1 & A1 & _ & H) end.
    destruct (alike_goes _ _ A1 T) as [T1 _]. destruct H as [(e & _ & A2 & _)|(b & f & _ & A2 & _)].
    - destruct (alike_goes _ _ A2 T1) as [T2 _]. split; [exact T2|]. intros b n _ H. rewrite (al_resv _ _ A2), (al_resv _ _ A1). exact H.
    - cbv beta in A2. destruct (n_resv s1 a) as [n|] eqn:E; cbn [snd] in A2.
      + assert (T2 : tiled (with_resv (drop_pages (a / P) n s1) (put (n_resv s1) a None))).
        { apply (tiled_less s1 _ a n T1); [right; split; assumption|auto|exact (pages_less s1 a n)| | |].
          - intros c N. cbn. rewrite put_other by exact N. auto.
          - cbn. destruct (n_view s1 a) as [m|] eqn:V; [|reflexivity]. rewrite (td_one _ _ _ T1 _ _ V) in E. discriminate E.
          - cbn. apply put_same. }
        destruct (alike_goes _ _ A2 T2) as [T3 _]. split; [exact T3|]. intros c m N H. rewrite (al_resv _ _ A2). cbn. rewrite put_other by exact N.
        rewrite (al_resv _ _ A1). exact H.
      + destruct (alike_goes _ _ A2 T1) as [T2 _]. split; [exact T2|]. intros c m _ H. rewrite (al_resv _ _ A2), (al_resv _ _ A1). exact H.
  Qed.
  Lemma goesly_reserve len : goesly (reserve t len).
  Proof.
    intros s T. unfold reserve, wbind, win_call. pose proof (goesly_alloc len s T) as [T1 K1].
    destruct (virtual_alloc t len s) as [[a|e| | |] s1] eqn:E; cbn [snd] in *; auto.
    apply alloc_ret in E as [E _].
    assert (O : n_resv s0 a = None) by (destruct (n_resv s0 a) as [m|] eqn:E0; [rewrite (td_old _ _ _ T _ _ E0) in E; discriminate E|reflexivity]).
    destruct (free_goes a s1 O T1) as [T2 K2]. unfold no_result.
    assert (G : forall b m, n_resv s b = Some m -> n_resv (snd (virtual_free t a s1)) b = Some m) by (intros b m H; apply K2; [congruence|auto]).
    destruct (virtual_free t a s1) as [[[]|e| | |] s2]; cbn in *; auto.
  Qed.

  (** ** windows.rs *)
  Lemma goesly_create file pr hi lo : goesly (create_mapping t file pr hi lo).
  Proof.
    apply goesly_call. intros h f s. apply alike_goes. cbv zeta. destruct (n_sec s h); [apply alike_refl|]. destruct (h <=? 0); [apply alike_refl|].
    destruct file as [fd|].
    - destruct (w_fd (n_w s) fd) as [x|]; [|apply alike_refl]. repeat (destruct (_ : bool); [apply alike_refl|]).
      split; [apply dom_refl| |]; reflexivity.
    - destruct (_ || _); [apply alike_refl|]. split; [apply dom_eq; reflexivity| |]; reflexivity.
  Qed.
  Lemma goesly_scoped {A} h (m : WT error A) : goesly m -> goesly (scoped h m).
  Proof.
    intros H s. unfold scoped. specialize (H s). destruct (m s) as [r s1]. cbn [snd] in *. refine (goes_trans _ _ _ H (alike_goes _ _ _)).
    split; [apply dom_refl| |]; reflexivity.
  Qed.
  Lemma goesly_map_file fd off len p : goesly (win_map_file t fd off len p).
  Proof.
    unfold win_map_file. destruct (protect_pair p) as [pr acc]. apply goesly_bind; [apply goesly_win, goesly_create|]. intros h.
    apply goesly_scoped, goesly_win, goesly_map.
  Qed.
  Lemma goesly_map_anon len p : goesly (win_map_anon t len p).
  Proof.
    unfold win_map_anon. destruct (protect_pair p) as [pr acc]. apply goesly_bind; [apply goesly_win, goesly_create|]. intros h.
    apply goesly_scoped, goesly_win, goesly_map.
  Qed.
  Lemma goesly_ring_handle h len pg : goesly (map_ring_handle t h len pg).
  Proof.
    apply goesly_bind; [apply goesly_win, goesly_map|]. intros a s.
    pose proof (goesly_win RingSecondary _ (goesly_map h MapReadWrite (hi_dword 0) (lo_dword 0) len (ptr_add t pg len)) s) as H.
    unfold handle_view. destruct (win_call _ _ s) as [[b|e| | |] s1]; cbn [snd] in *; try exact H.
    refine (goes_trans _ _ _ H _). exact (goesly_bind _ _ (goesly_none _ (goesly_unmap a)) (fun _ => goesly_out (Err e)) s1).
  Qed.
  Lemma goesly_loop more h len full : goesly (ring_loop t more h len full).
  Proof.
    induction more as [|more IH]; (apply goesly_bind; [apply goesly_reserve|]); intros pg s; pose proof (goesly_ring_handle h len pg s) as H;
      destruct (map_ring_handle t h len pg s) as [[b|e| | |] s1]; cbn [snd] in *; try exact H.
    exact (goes_trans _ _ _ H (IH s1)).
  Qed.
  Lemma goesly_ring_new hint : goesly (win_ring_new t hint).
  Proof.
    apply goesly_bind; [apply goesly_out|]. intros len. apply goesly_bind; [|intros p; apply goesly_out]. apply goesly_bind; [apply goesly_out|]. intros full.
    apply goesly_bind; [apply goesly_win, goesly_create|]. intros h. apply goesly_scoped, goesly_loop.
  Qed.
  Lemma goesly_ring_drop r : goesly (win_ring_drop t r).
  Proof.
    intros s. unfold win_ring_drop.
    pose proof (goesly_bind _ _ (goesly_win RingDeallocate _ (goesly_unmap (ptr_add t (ra_ptr r) (ra_len r)))) (fun _ => goesly_none _ (goesly_unmap (ra_ptr r))) s) as H.
    unfold win_unmap_ring. destruct (wbind _ _ s) as [[[]|e| | |] s1]; exact H.
  Qed.
  Lemma goesly_pages c a len k : (forall x y, goesly (k x y)) -> goesly (on_pages t c a len k).
  Proof.
    intros H. apply goesly_call. intros _ _ s. cbv zeta. destruct (len <=? 0); [apply goes_refl|]. destruct (mapped_range _ _ _); [apply H|apply goes_refl].
  Qed.
  Lemma goesly_change f x n : goesly (change f x n).
  Proof.
    intros s. apply alike_goes. split; [|reflexivity..]. intros p. cbn. destruct (in_pages x n p); [|reflexivity]. destruct (w_vm (n_w s) p); cbn; split; auto; discriminate.
  Qed.
  Definition page_goes (f : Z -> Z -> WT error unit) : Prop := forall a len, goesly (f a len).
  Lemma goesly_protect p : page_goes (fun a l => win_protect t a l p).
  Proof.
    intros a l. apply goesly_win, goesly_pages. intros x n s. destruct (forallb _ _); [apply goesly_change|apply goes_refl].
  Qed.
  Lemma goesly_lock : page_goes (win_lock t).
  Proof. intros a l. apply goesly_win, goesly_pages. intros x n. apply goesly_change. Qed.
  Lemma goesly_unlock : page_goes (win_unlock t).
  Proof.
    intros a l. apply goesly_win, goesly_pages. intros x n s. destruct (forallb _ _); [apply goesly_change|apply goes_refl].
  Qed.
  Lemma goesly_flush fd mode : page_goes (fun a l => win_flush t a fd l mode).
  Proof.
    intros a l. apply goesly_bind.
    - apply goesly_win. intros s. unfold flush_view. apply goesly_pages. intros x n s1. apply alike_goes. split; [apply dom_refl| |]; reflexivity.
    - intros _. destruct mode; [|apply goesly_out]. apply goesly_win, goesly_call. intros _ _ s. apply alike_goes. destruct (w_fd (n_w s) fd) as [x|]; [|apply alike_refl].
      destruct (negb _); [apply alike_refl|]. split; [apply dom_eq; reflexivity| |]; reflexivity.
  Qed.
  Lemma goesly_advise adv : page_goes (fun a l => win_advise a l adv).
  Proof. intros a l s. apply goes_refl. Qed.
  Lemma goesly_whole m f : page_goes f -> goesly (wwhole t m f).
  Proof. intros H. apply goesly_bind; [apply goesly_out|]. intros b. apply H. Qed.
  Lemma goesly_ranged op m off len f : page_goes f -> goesly (wranged t op m off len f).
  Proof.
    intros H. apply goesly_bind; [apply goesly_out|]. intros e. destruct (_ <? _); [apply goesly_out|]. apply goesly_bind; [apply goesly_out|]. intros b. apply H.
  Qed.
  Lemma goesly_convert m f : goesly f -> goesly (wconvert m f).
  Proof. intros H s. specialize (H s). unfold wconvert. destruct (f s) as [[[]|e| | |] s1]; exact H. Qed.
  Lemma goesly_drop m : goesly (wdrop t m).
  Proof.
    intros s. unfold wdrop. destruct (0 <? m_len m); [|apply goes_refl]. destruct (size_bounds _ _ _ _) as [[p l]|e| | |]; try apply goes_refl.
    pose proof (goesly_unmap p s) as H. unfold win_unmap. destruct (unmap_view t p s) as [[[]|e| | |] s1]; exact H.
  Qed.

  (** ** src/map.rs *)
  Lemma domly_io {A} (m : ST io_error A) : domly m -> domly (io_call m).
  Proof. intros H w. specialize (H w). unfold io_call. destruct (m w) as [[a|e| | |] w1]; exact H. Qed.
  Lemma domly_len fd : domly (file_len fd).
  Proof.
    intros w. unfold file_len. assert (H : domly (sys_fstat fd)) by (apply domly_ask; intros a v; destruct (w_fd v fd); apply dom_refl).
    specialize (H w). destruct (sys_fstat fd w) as [[a|e| | |] w1]; exact H.
  Qed.
  Lemma domly_resize fd sz : domly (resize_to t fd sz).
  Proof.
    apply domly_bind; [|intros _; apply domly_ret]. apply domly_io. intros w. unfold file_set_len. destruct (_ <? _); [apply dom_refl|].
    assert (H : domly (sys_ftruncate t fd (as_u64 sz))).
    { apply domly_ask. intros a v. destruct (_ <? 0); [apply dom_refl|]. destruct (w_fd v fd) as [f|]; [|apply dom_refl]. destruct (negb _); [apply dom_refl|apply dom_resize]. }
    specialize (H w). destruct (sys_ftruncate t fd (as_u64 sz) w) as [[a|e| | |] w1]; exact H.
  Qed.
  Lemma goesly_map_if o fd : goesly (wmap_if t o fd).
  Proof.
    apply goesly_bind; [apply goesly_lift, domly_bind; [apply domly_io, domly_len|intros; apply domly_ret]|]. intros fl.
    apply goesly_bind; [apply goesly_lift; destruct (_ && _); [apply domly_resize|apply domly_ret]|]. intros fl2.
    apply goesly_bind; [apply goesly_lift; destruct (op_resize o); try destruct (_ <? _); try apply domly_resize; apply domly_ret|]. intros fl3.
    destruct (_ <? _); [apply goesly_out|]. apply goesly_bind; [apply goesly_out|]. intros max. destruct (extent_len _ _) as [len|]; [|apply goesly_out].
    apply goesly_bind; [apply goesly_out|]. intros mo. apply goesly_bind; [apply goesly_out|]. intros d. apply goesly_bind; [apply goesly_out|]. intros ml.
    apply goesly_bind; [apply goesly_map_file|]. intros ptr. apply goesly_out.
  Qed.
  Lemma goesly_open_if o path : goesly (wopen_if t o path).
  Proof.
    apply goesly_bind; [apply goesly_lift, domly_io, domly_file_open|]. intros f. apply goesly_bind; [|intros m; apply goesly_out].
    intros s. unfold wclosing. pose proof (goesly_map_if o f s) as H. destruct (wmap_if t o f s) as [[m|e| | |] s1]; cbn [snd] in *; try exact H;
      (refine (goes_trans _ _ _ H (alike_goes _ _ _)); split; [apply dom_eq; reflexivity| |]; reflexivity).
  Qed.
  Lemma goesly_alloc_map o : goesly (walloc t o).
  Proof.
    apply goesly_bind; [apply goesly_out|]. intros off. apply goesly_bind; [destruct (op_len o); apply goesly_out|]. intros len.
    apply goesly_bind; [apply goesly_out|]. intros total. apply goesly_bind; [apply goesly_map_anon|]. intros ptr. apply goesly_out.
  Qed.

  (** ** Programs *)
  Lemma finish_state {E A} (r : out E A) err f g s' : g_s g = s' -> (forall a, g_s (snd (f a)) = s') -> g_s (snd (finish r err f g)) = s'.
  Proof. intros H1 H2. destruct r; cbn; auto. Qed.
  Lemma plain_state g x : g_s (snd (plain g x)) = snd x.
  Proof. unfold plain. apply finish_state; reflexivity. Qed.
  Lemma goes_step a g : goes (g_s g) (g_s (snd (act_step t a g))).
  Proof.
    assert (Wm : forall k f, (forall v, goes (g_s g) (g_s (snd (f v)))) -> goes (g_s g) (g_s (snd (with_map g k f)))).
    { intros k f H. unfold with_map. destruct (g_tab g k) as [[v|r o]|]; [auto|apply goes_refl..]. }
    assert (Wu : forall k f, (forall v, goes (g_s g) (g_s (snd (f v)))) -> goes (g_s g) (g_s (snd (with_mut g k f)))).
    { intros k f H. apply Wm. intros v. destruct (v_mut v); [auto|apply goes_refl]. }
    assert (Pl : forall m : WT error unit, goesly m -> goes (g_s g) (g_s (snd (plain g (m (g_s g)))))) by (intros m H; rewrite plain_state; apply H).
    assert (St : forall addr b, goesly (lift (OsModel.store (E:=error) t addr b))) by (intros addr b; apply goesly_lift; intros w; apply dom_store).
    destruct a; cbn [act_step].
    - pose proof (goesly_open_if o path (g_s g)) as H. destruct (wopen_if t o path (g_s g)) as [r s']. erewrite finish_state; [exact H|reflexivity|].
      intros [[m|] fd]; reflexivity.
    - pose proof (goesly_map_if o fd (g_s g)) as H. destruct (wmap_if t o fd (g_s g)) as [r s']. erewrite finish_state; [exact H|reflexivity|].
      intros [m|]; reflexivity.
    - pose proof (goesly_alloc_map o (g_s g)) as H. destruct (walloc t o (g_s g)) as [r s']. erewrite finish_state; [exact H|reflexivity|]. reflexivity.
    - apply alike_goes. split; [apply dom_eq; reflexivity| |]; reflexivity.
    - apply Wm. intros v. destruct (v_mut v); [apply goes_refl|].
      pose proof (goesly_convert (v_map v) _ (goesly_whole (v_map v) _ (goesly_protect ReadWrite)) (g_s g)) as H. unfold winto_map_mut.
      destruct (wconvert _ _ (g_s g)) as [r s']. erewrite finish_state; [exact H|reflexivity|reflexivity].
    - apply Wu. intros v.
      pose proof (goesly_convert (v_map v) _ (goesly_whole (v_map v) _ (goesly_protect ReadWrite)) (g_s g)) as H. unfold winto_map.
      destruct (wconvert _ _ (g_s g)) as [r s']. erewrite finish_state; [exact H|reflexivity|reflexivity].
    - destruct (g_tab g k) as [[v|r o]|]; [| |apply goes_refl]; unfold reads; (erewrite finish_state; [|reflexivity|reflexivity]).
      + apply goesly_lift. intros w. unfold map_get. destruct (_ && _); apply dom_refl.
      + unfold wring_get. destruct (_ && _); apply goes_refl.
    - destruct (g_tab g k) as [[v|r o]|]; [| |apply goes_refl].
      + destruct (v_mut v); [|apply goes_refl]. apply Pl. apply goesly_lift. intros w. unfold map_set. destruct (_ && _); [apply dom_store|apply dom_refl].
      + apply Pl. apply goesly_lift. intros w. destruct (_ && _); [apply dom_store|apply dom_refl].
    - apply Wu. intros v. apply Pl, goesly_whole, goesly_flush.
    - apply Wu. intros v. apply Pl, goesly_ranged, goesly_flush.
    - apply Wm. intros v. apply Pl, goesly_whole, goesly_advise.
    - apply Wm. intros v. apply Pl, goesly_ranged, goesly_advise.
    - apply Wm. intros v. apply Pl, goesly_whole, goesly_lock.
    - apply Wm. intros v. apply Pl, goesly_ranged, goesly_lock.
    - apply Wm. intros v. apply Pl, goesly_whole, goesly_unlock.
    - apply Wm. intros v. apply Pl, goesly_ranged, goesly_unlock.
    - pose proof (goesly_ring_new hint (g_s g)) as H. destruct (win_ring_new t hint (g_s g)) as [r s']. erewrite finish_state; [exact H|reflexivity|]. reflexivity.
    - destruct (g_tab g k) as [x|]; [|apply goes_refl].
      assert (H : goes (g_s g) (snd (match x with TMap v => wdrop t (v_map v) (g_s g) | TRing r _ => win_ring_drop t r (g_s g) end))).
      { destruct x as [v|r o]; [apply goesly_drop|apply goesly_ring_drop]. }
      destruct (match x with TMap v => _ | TRing r _ => _ end) as [r s']. erewrite finish_state; [exact H|reflexivity|]. reflexivity.
    - apply alike_goes. split; [|reflexivity..]. intros p. cbn [snd g_s g_set]. destruct (wothers_space t e (g_s g)) as (_ & _ & _ & _ & _ & _ & ->).
      destruct (w_vm (n_w (g_s g)) p) as [x|] eqn:E; [|apply (others_unmapped t e) in E; rewrite E; split; congruence].
      destruct (others_page t e _ _ _ E) as (x' & -> & _). split; discriminate.
  Qed.
  Lemma goes_run h : forall g, goes (g_s g) (g_s (act_run t h g)).
  Proof. induction h as [|a h IH]; intros g; [apply goes_refl|]. exact (goes_trans _ _ _ (goes_step a g) (IH _)). Qed.
  Lemma tiled_start : fresh_start s0 -> tiled s0.
  Proof.
    intros [_ F1 F2]. assert (N : forall a n, ~ region s0 a n) by (intros a n [H|[H1 H2]]; [rewrite F2 in H; discriminate H|congruence]).
    split; auto.
    - intros p. rewrite F1. split; [contradiction|]. intros (a & n & H & _). destruct (N _ _ H).
    - intros a n b m p H. destruct (N _ _ H).
    - intros a n H. rewrite F2 in H. discriminate H.
  Qed.
End Tiles.

Section Orphans.
  Variable t : target.
  Hypothesis Ht : good_target t.
  Notation P := (t_page t).
  Let HP : 0 < P.
  Proof. exact (pow2_pos _ (proj1 (proj2 Ht))). Qed.

  Lemma same_bases x x' a : same_thing x x' -> bases_of t x a -> bases_of t x' a.
  Proof. destruct x as [v|r o], x' as [v'|r' o']; cbn; try contradiction; [intros (-> & _)|intros [-> _]]; auto. Qed.
  Lemma same_bases_back x x' a : same_thing x x' -> bases_of t x' a -> bases_of t x a.
  Proof. destruct x as [v|r o], x' as [v'|r' o']; cbn; try contradiction; [intros (-> & _)|intros [-> _]]; auto. Qed.
  Lemma bases_dec x a : bases_of t x a \/ ~ bases_of t x a.
  Proof.
    destruct x as [v|r o]; cbn.
    - destruct (Z.eq_dec a (map_base t (v_map v))); auto.
    - destruct (Z.eq_dec a (ra_ptr r)), (Z.eq_dec a (ra_ptr r + ra_len r)); tauto.
  Qed.

  (** ** Nothing is taken back *)
  Lemma orphans_kept a g : act_ok t a -> prog_ok t g -> forall b, orphan t g b ->
    orphan t (snd (act_step t a g)) b /\ n_view (g_s (snd (act_step t a g))) b = n_view (g_s g) b.
  Proof.
    intros Ha K b [V N]. destruct (step_spec t Ht a g Ha K) as (X & T & Y & S1). set (g' := snd (act_step t a g)) in *.
    assert (E : n_view (g_s g') b = n_view (g_s g) b).
    { destruct (n_view (g_s g) b) as [n|] eqn:E; [|contradiction]. destruct (ev_view _ _ _ _ _ _ (st_ev _ _ _ _ _ _ _ S1) b n E) as [Xb|E']; [|exact E'].
      destruct (st_only _ _ _ _ _ _ _ S1 b Xb) as (k & x & _ & Hx & Bx). destruct (N k x Hx Bx). }
    split; [|exact E]. split; [congruence|]. intros k x' Hx Bx. destruct (st_from _ _ _ _ _ _ _ S1 k x' Hx) as [(x & Hk & S2)|F].
    - exact (N k x Hk (same_bases_back _ _ _ S2 Bx)).
    - apply V, F, Bx.
  Qed.

  (** ** What is left behind *)
  Lemma failed_dec l : failed_release l \/ ~ failed_release l.
  Proof.
    unfold failed_release. induction l as [|[c b] l [IH|IH]]; [right; intros (a & [[]|[]])|left|].
    - destruct IH as (a & [H|H]); exists a; cbn; auto.
    - assert (D : (exists a, (c, b) = (WRelease a, false) \/ (c, b) = (WUnmap a, false)) \/ ~ exists a, (c, b) = (WRelease a, false) \/ (c, b) = (WUnmap a, false)).
      { destruct b; [right; intros (a & [H|H]); discriminate H|]. destruct c; try (right; intros (a' & [H|H]); discriminate H); left; eauto. }
      destruct D as [(a & [H|H])|D]; [left; exists a; left; left; exact H|left; exists a; right; left; exact H|right].
      intros (a & [[H|H]|[H|H]]); [apply D; eauto|apply IH; eauto|apply D; eauto|apply IH; eauto].
  Qed.
  Lemma no_new_orphans a g b : act_ok t a -> prog_ok t g ->
    (match a with ARing _ | ADrop _ => released (g_s g) (g_s (snd (act_step t a g))) | _ => True end) -> drops_filled a g ->
    orphan t (snd (act_step t a g)) b -> orphan t g b.
  Proof.
    intros Ha K Rl Df [V N]. destruct (step_spec t Ht a g Ha K) as (X & T & Y & S1).
    set (D := fun c => exists k x, drops a k /\ g_tab g k = Some x /\ bases_of t x c).
    assert (Dd : forall c, D c \/ ~ D c).
    { intros c. unfold D. destruct a; try (right; intros (k' & y & Hd & _); exact Hd). cbn [drops]. destruct (g_tab g k) as [x|] eqn:E.
      - destruct (bases_dec x c) as [H|H]; [left; eauto 6|right]. intros (k' & y & <- & E2 & B). congruence.
      - right. intros (k' & y & <- & E2 & B). congruence. }
    destruct (exact_step t Ht (fun c => n_view (g_s g) c <> None /\ ~ D c) (fun _ => True) a g Ha K) as [[E1 _] _]; auto.
    - split; [|auto]. intros c n H. destruct (Dd c) as [(k & x & _ & Hx & Bx)|Dn]; [right; eauto|left]. split; [congruence|exact Dn].
    - destruct (n_view (g_s (snd (act_step t a g))) b) as [n|] eqn:Eb; [|contradiction].
      destruct (E1 b n Eb) as [[V0 Dn]|(k & x & Hx & Bx)]; [|destruct (N k x Hx Bx)]. split; [exact V0|]. intros k x Hx Bx.
      destruct (Dd b) as [Db|_]; [contradiction|].
      assert (Nd : ~ drops a k) by (intros Hd; apply Dn; exists k, x; auto). destruct (st_tab _ _ _ _ _ _ _ S1 k x Hx Nd) as (x' & Hx' & S2).
      exact (N k x' Hx' (same_bases _ _ _ S2 Bx)).
  Qed.
  Lemma no_new_resv a g : act_ok t a -> prog_ok t g ->
    (match a with ARing _ | ADrop _ => released (g_s g) (g_s (snd (act_step t a g))) | _ => True end) -> drops_filled a g ->
    same_kernel (g_s g) (g_s (snd (act_step t a g))).
  Proof.
    intros Ha K Rl Df. apply (exact_step t Ht (fun _ => True) (fun _ => True) a g Ha K); auto. split; auto.
  Qed.

  (** Dropping only takes views away. *)
  Record shrinks (s s' : win) : Prop := {
    sk_view : forall a n, n_view s' a = Some n -> n_view s a = Some n;
    sk_resv : forall a, n_resv s' a = n_resv s a;
    sk_sec : forall h, n_sec s' h = n_sec s h;
    sk_log : exists l, calls s s' l
  }.
  Lemma shrinks_refl s : shrinks s s.
  Proof. split; auto. exists []. reflexivity. Qed.
  Lemma shrinks_trans s1 s2 s3 : shrinks s1 s2 -> shrinks s2 s3 -> shrinks s1 s3.
  Proof.
    intros [A1 A2 A3 (l & A4)] [B1 B2 B3 (m & B4)]. split; auto; try congruence. exists (m ++ l). unfold calls in *. rewrite <- app_assoc. congruence.
  Qed.
  Lemma call_log {A} c (k : Z -> (Z -> bool) -> WT Z A) s : (forall a f s1, n_log (snd (k a f s1)) = n_log s1) -> exists l, calls s (snd (call c k s)) l.
  Proof.
    intros H. unfold call, ask, calls. destruct (w_orc (n_w s)) as [|[e|a] o].
    - exists [(c, false)]. reflexivity.
    - exists [(c, false)]. reflexivity.
    - set (s1 := with_w _ _). pose proof (H a (hd (fun _ => false) (n_env s)) s1) as L. destruct (k a _ s1) as [r s2]. cbn [snd] in L.
      destruct r; cbn [snd n_log with_log with_last]; rewrite L; [exists [(c, true)]|exists [(c, false)]|exists []..]; reflexivity.
  Qed.
  Lemma shrinks_unmap a s : shrinks s (snd (unmap_view t a s)).
  Proof.
    assert (L : exists l, calls s (snd (unmap_view t a s)) l) by (apply call_log; intros b f s1; destruct (n_view s1 a); reflexivity).
    unfold unmap_view in *. match goal with |- context [call ?c ?k s] => destruct (call_run c k s) as (s1 & A1 & Sc1 & H) end.
    destruct H as [(e & _ & A2 & Sc2)|(b & f & _ & A2 & Sc2)].
    - split; [| | |exact L]; intros c; [intros n|..]; rewrite ?(al_view _ _ A2), ?(al_view _ _ A1), ?(al_resv _ _ A2), ?(al_resv _ _ A1), ?Sc2, ?Sc1; auto.
    - cbv beta in A2, Sc2. destruct (n_view s1 a) as [n|] eqn:E; cbn [snd] in A2, Sc2.
      + split; [| | |exact L].
        * intros c m. rewrite (al_view _ _ A2). cbn. unfold put. destruct (c =? a); [discriminate|]. rewrite (al_view _ _ A1). auto.
        * intros c. rewrite (al_resv _ _ A2). cbn. apply (al_resv _ _ A1).
        * intros c. rewrite Sc2. cbn. rewrite Sc1. reflexivity.
      + split; [| | |exact L]; intros c; [intros n|..]; rewrite ?(al_view _ _ A2), ?(al_view _ _ A1), ?(al_resv _ _ A2), ?(al_resv _ _ A1), ?Sc2, ?Sc1; auto.
  Qed.
  Lemma shrinks_drop x s : shrinks s (snd (match x with TMap v => wdrop t (v_map v) s | TRing r _ => win_ring_drop t r s end)).
  Proof.
    destruct x as [v|r o].
    - unfold wdrop. destruct (0 <? m_len (v_map v)); [|apply shrinks_refl]. destruct (size_bounds _ _ _ _) as [[p l]|e| | |]; try apply shrinks_refl.
      pose proof (shrinks_unmap p s) as H. unfold win_unmap. destruct (unmap_view t p s) as [[[]|e| | |] s1]; exact H.
    - unfold win_ring_drop, win_unmap_ring, wbind, win_call. set (b := ptr_add t (ra_ptr r) (ra_len r)).
      pose proof (shrinks_unmap b s) as H. destruct (unmap_view t b s) as [[[]|e| | |] s1]; try exact H.
      pose proof (shrinks_unmap (ra_ptr r) s1) as H2. unfold no_result. destruct (unmap_view t (ra_ptr r) s1) as [[[]|e| | |] s2]; exact (shrinks_trans _ _ _ H H2).
  Qed.
  Lemma drop_state k g : exists s', shrinks (g_s g) s' /\
    (g_tab g k = None /\ snd (act_step t (ADrop k) g) = g \/
     exists x, g_tab g k = Some x /\ snd (act_step t (ADrop k) g) = g_put g s' k None).
  Proof.
    cbn [act_step]. destruct (g_tab g k) as [x|]; [|exists (g_s g); split; [apply shrinks_refl|left; auto]].
    pose proof (shrinks_drop x (g_s g)) as H. destruct (match x with TMap v => _ | TRing r _ => _ end) as [r s']. exists s'. split; [exact H|]. right.
    exists x. split; [reflexivity|]. destruct r; reflexivity.
  Qed.
  Lemma not_released s s' : (exists l, calls s s' l) -> ~ released s s' -> refused_release s s'.
  Proof. intros (l & C) N. exists l. split; [exact C|]. destruct (failed_dec l) as [F|F]; [exact F|]. destruct N. exists l. auto. Qed.
  Lemma release_dec s s' : (exists l, calls s s' l) -> released s s' \/ refused_release s s'.
  Proof. intros (l & C). destruct (failed_dec l) as [F|F]; [right|left]; exists l; auto. Qed.
  Lemma dropped_orphan k g b : prog_ok t g -> orphan t (snd (act_step t (ADrop k) g)) b -> orphan t g b \/
    exists x, g_tab g k = Some x /\ bases_of t x b /\ (empty_map x \/ refused_release (g_s g) (g_s (snd (act_step t (ADrop k) g)))).
  Proof.
    intros K O. destruct (drop_state k g) as (s' & [S1 S2 S3 S4] & [[_ E]|(x & Hx & E)]); [rewrite E in O; auto|].
    destruct (bases_dec x b) as [Bx|Nb].
    - assert (Log : exists l, calls (g_s g) (g_s (snd (act_step t (ADrop k) g))) l) by (rewrite E; exact S4).
      assert (C : empty_map x \/ ~ empty_map x) by (destruct x as [v|r o]; cbn; [destruct (Z.eq_dec (m_len (v_map v)) 0); auto|auto]).
      destruct C as [C|C]; [right; exists x; auto|]. destruct (release_dec _ _ Log) as [R|R]; [left|right; exists x; auto].
      apply (no_new_orphans (ADrop k)); auto; [exact Logic.I|]. intros k' v [= <-] Hv. assert (x = TMap v) by congruence. subst x.
      pose proof (mo_len _ _ _ (po_thing _ _ K _ _ Hx)). cbn in C. lia.
    - left. rewrite E in O. destruct O as [V N]. cbn in V, N. split.
      + destruct (n_view s' b) as [n|] eqn:Eb; [|contradiction]. rewrite (S1 _ _ Eb). discriminate.
      + intros j y Hy By. destruct (Z.eq_dec j k) as [->|Nj]; [congruence|]. apply (N j y); [|exact By]. rewrite put_other by exact Nj. exact Hy.
  Qed.

  (** ** Attempts to make a ring *)

  (** Views and reservations of [s'] are those of [s] or in [l]. *)
  Definition leaves (l : list (Z * Z)) (s s' : win) : Prop :=
    (forall a n, n_view s' a = Some n -> n_view s a = Some n \/ In (a, n) l) /\
    (forall a n, n_resv s' a = Some n -> n_resv s a = Some n \/ In (a, n) l).
  Lemma leaves_refl s : leaves [] s s.
  Proof. split; auto. Qed.
  Lemma leaves_alike s s' : (forall a, n_view s' a = n_view s a) -> (forall a, n_resv s' a = n_resv s a) -> leaves [] s s'.
  Proof. intros A B. split; intros a n H; [rewrite A in H|rewrite B in H]; auto. Qed.
  Lemma leaves_trans l m s1 s2 s3 : leaves l s1 s2 -> leaves m s2 s3 -> leaves (l ++ m) s1 s3.
  Proof.
    intros [A1 A2] [B1 B2]. split; intros a n H.
    - destruct (B1 a n H) as [H1|H1]; [|right; apply in_or_app; auto]. destruct (A1 a n H1); [auto|right; apply in_or_app; auto].
    - destruct (B2 a n H) as [H1|H1]; [|right; apply in_or_app; auto]. destruct (A2 a n H1); [auto|right; apply in_or_app; auto].
  Qed.
  Lemma leaves_pre s1 s2 s3 l : leaves [] s1 s2 -> leaves l s2 s3 -> leaves l s1 s3.
  Proof. intros A B. exact (leaves_trans [] l _ _ _ A B). Qed.
  Lemma leaves_post s1 s2 s3 l : leaves l s1 s2 -> leaves [] s2 s3 -> leaves l s1 s3.
  Proof. intros A B. rewrite <- (app_nil_r l). exact (leaves_trans l [] _ _ _ A B). Qed.

  Lemma range_in a len : range_ok t a len = true -> 0 < len -> 0 < a /\ a + len <= 2 ^ t_bits t - P.
  Proof.
    unfold range_ok. intros H L. apply andb_true_iff in H as [H H2]. apply andb_true_iff in H as [H1 _].
    apply Z.leb_le in H1, H2. unfold npages in H2. pose proof (Z.div_mod (len + P - 1) P ltac:(lia)). pose proof (Z.mod_pos_bound (len + P - 1) P HP). nia.
  Qed.
  Lemma alike_space s1 s2 s3 s4 : alike s1 s2 -> (forall a, n_view s3 a = n_view s2 a) -> (forall a, n_resv s3 a = n_resv s2 a) -> alike s3 s4 ->
    (forall a, n_view s4 a = n_view s1 a) /\ (forall a, n_resv s4 a = n_resv s1 a).
  Proof.
    intros [_ A1 A2] B1 B2 [_ C1 C2]. split; intros a; [rewrite C1, B1, A1|rewrite C2, B2, A2]; reflexivity.
  Qed.
  Lemma view_leaves h acc hi lo len at_ s : 0 < len ->
    match map_view t h acc hi lo len at_ s with
    | (Ret b, s') => (at_ <> 0 -> b = at_) /\ (0 < b /\ b + len <= 2 ^ t_bits t - P) /\ n_view s b = None /\ n_resv s b = None /\
        (forall a, n_view s' a = put (n_view s) b (Some (npages t len)) a) /\ (forall a, n_resv s' a = n_resv s a)
    | (_, s') => (forall a, n_view s' a = n_view s a) /\ (forall a, n_resv s' a = n_resv s a)
    end.
  Proof.
    intros Hl. unfold map_view. match goal with |- context [call ?c ?k s] => destruct (call_run c k s) as (s1 & A1 & _ & H); destruct (call c k s) as [r s'] end.
    cbn [fst snd] in H. destruct H as [(e & -> & A2 & _)|(a & f & Er & A2 & _)].
    - exact (alike_space _ _ _ _ A1 (fun _ => eq_refl) (fun _ => eq_refl) A2).
    - cbv zeta in Er, A2. destruct (n_sec s1 h) as [c|]; [|cbn [fst snd] in Er, A2; subst r; exact (alike_space _ _ _ _ A1 (fun _ => eq_refl) (fun _ => eq_refl) A2)].
      assert (L0 : (len =? 0) = false) by (apply Z.eqb_neq; lia). rewrite L0 in *. set (base := if at_ =? 0 then a else at_) in *. set (off := dwords hi lo) in *.
      destruct (_ || _); [cbn [fst snd] in Er, A2; subst r; exact (alike_space _ _ _ _ A1 (fun _ => eq_refl) (fun _ => eq_refl) A2)|].
      destruct (_ || _); [cbn [fst snd] in Er, A2; subst r; exact (alike_space _ _ _ _ A1 (fun _ => eq_refl) (fun _ => eq_refl) A2)|].
      destruct (match acc with MapReadWrite => _ | _ => _ end); [cbn [fst snd] in Er, A2; subst r; exact (alike_space _ _ _ _ A1 (fun _ => eq_refl) (fun _ => eq_refl) A2)|].
      destruct (negb _ || negb (no_one _ _ _ _ _)) eqn:E; [cbn [fst snd] in Er, A2; subst r; exact (alike_space _ _ _ _ A1 (fun _ => eq_refl) (fun _ => eq_refl) A2)|].
      apply orb_false_iff in E as [E0 E]. apply negb_false_iff in E0, E. apply no_one_free in E as (E1 & E2 & _). cbn [fst snd] in Er, A2. subst r.
      destruct A1 as [_ V1 R1], A2 as [_ V2 R2]. split; [intros N; unfold base; destruct (Z.eqb_spec at_ 0); [contradiction|reflexivity]|].
      split; [exact (range_in _ _ E0 Hl)|]. split; [rewrite <- V1; exact E1|]. split; [rewrite <- R1; exact E2|]. split.
      + intros b. rewrite V2. cbn. unfold put. destruct (b =? base); [reflexivity|apply V1].
      + intros b. rewrite R2. apply R1.
  Qed.
  Lemma reserve_leaves len s :
    match reserve t len s with
    | (Ret pg, s') => 0 < pg /\ (forall a, n_view s' a = n_view s a) /\
        ((forall a, n_resv s' a = n_resv s a) \/ (n_resv s' pg <> None /\ forall a, n_resv s' a = put (n_resv s) pg (Some (npages t len)) a))
    | (_, s') => (forall a, n_view s' a = n_view s a) /\ (forall a, n_resv s' a = n_resv s a)
    end.
  Proof.
    unfold reserve, wbind, win_call.
    assert (Al : match virtual_alloc t len s with
      | (Ret pg, s') => 0 < pg /\ n_resv s pg = None /\ (forall a, n_view s' a = n_view s a) /\ (forall a, n_resv s' a = put (n_resv s) pg (Some (npages t len)) a)
      | (_, s') => (forall a, n_view s' a = n_view s a) /\ (forall a, n_resv s' a = n_resv s a)
      end).
    { unfold virtual_alloc. match goal with |- context [call ?c ?k s] => destruct (call_run c k s) as (s1 & A1 & _ & H); destruct (call c k s) as [r s'] end.
      cbn [fst snd] in H. destruct H as [(e & -> & A2 & _)|(a & f & Er & A2 & _)].
      - exact (alike_space _ _ _ _ A1 (fun _ => eq_refl) (fun _ => eq_refl) A2).
      - cbv zeta in Er, A2. destruct (Z.leb_spec len 0) as [L|L]; [cbn [fst snd] in Er, A2; subst r; exact (alike_space _ _ _ _ A1 (fun _ => eq_refl) (fun _ => eq_refl) A2)|].
        destruct (negb _ || _ || negb (no_one _ _ _ _ _)) eqn:E; [cbn [fst snd] in Er, A2; subst r; exact (alike_space _ _ _ _ A1 (fun _ => eq_refl) (fun _ => eq_refl) A2)|].
        apply orb_false_iff in E as [E0 E]. apply orb_false_iff in E0 as [E0 _]. apply negb_false_iff in E0, E. apply no_one_free in E as (E1 & E2 & _). cbn [fst snd] in Er, A2. subst r.
        destruct A1 as [_ V1 R1], A2 as [_ V2 R2]. split; [apply (range_in _ _ E0 L)|]. split; [rewrite <- R1; exact E2|]. split.
        + intros b. rewrite V2. apply V1.
        + intros b. rewrite R2. cbn. unfold put. destruct (b =? a); [reflexivity|apply R1]. }
    destruct (virtual_alloc t len s) as [[pg|e| | |] s1]; try exact Al. destruct Al as (P0 & R0 & V1 & R1).
    unfold no_result. unfold virtual_free. match goal with |- context [call ?c ?k s1] => destruct (call_run c k s1) as (s2 & A1 & _ & H); destruct (call c k s1) as [r s'] end.
    cbn [fst snd] in H.
    assert (Kept : alike s2 s' -> 0 < pg /\ (forall a, n_view s' a = n_view s a) /\
        ((forall a, n_resv s' a = n_resv s a) \/ (n_resv s' pg <> None /\ forall a, n_resv s' a = put (n_resv s) pg (Some (npages t len)) a))).
    { intros A2. destruct (alike_space _ _ _ _ A1 (fun _ => eq_refl) (fun _ => eq_refl) A2) as [B1 B2]. split; [exact P0|]. split; [intros a; rewrite B1; apply V1|].
      right. split; [rewrite B2, R1, put_same; discriminate|]. intros a. rewrite B2. apply R1. }
    destruct H as [(e & -> & A2 & _)|(a & f & Er & A2 & _)]; [exact (Kept A2)|].
    cbv beta in Er, A2. destruct (n_resv s2 pg) as [n|] eqn:E; cbn [fst snd] in Er, A2; subst r; [|exact (Kept A2)].
    split; [exact P0|]. destruct A1 as [_ W1 Q1], A2 as [_ W2 Q2]. split.
    - intros b. rewrite W2. cbn. rewrite W1. apply V1.
    - left. intros b. rewrite Q2. cbn. unfold put at 1. destruct (Z.eqb_spec b pg) as [->|N]; [congruence|]. rewrite Q1, R1. apply put_other, N.
  Qed.

  (** What one attempt leaves behind, and the views of a ring. *)
  Definition two_views (pg len : Z) : list (Z * Z) := [(pg, npages t len); (pg + len, npages t len)].
  Lemma put_leaves s s' b n : (forall a, n_view s' a = put (n_view s) b (Some n) a) -> (forall a, n_resv s' a = n_resv s a) -> leaves [(b, n)] s s'.
  Proof.
    intros V R. split; intros a m H; [rewrite V in H|rewrite R in H; auto]. unfold put in H. destruct (Z.eqb_spec a b) as [->|]; [|auto].
    right. left. congruence.
  Qed.
  Lemma handle_leaves h len pg s : 0 < len -> 0 < pg ->
    match map_ring_handle t h len pg s with
    | (Ret b, s') => b = pg /\ n_resv s pg = None /\ leaves (two_views pg len) s s'
    | (_, s') => leaves [] s s' \/ (n_resv s pg = None /\ leaves [(pg, npages t len)] s s')
    end.
  Proof.
    intros Hl Hp. unfold map_ring_handle, wbind, handle_view, win_call.
    pose proof (view_leaves h MapReadWrite (hi_dword 0) (lo_dword 0) len pg s Hl) as H1.
    destruct (map_view t h MapReadWrite (hi_dword 0) (lo_dword 0) len pg s) as [[b|e| | |] s1]; try (left; apply leaves_alike; apply H1).
    destruct H1 as (B1 & B2 & B3 & B4 & B5 & B6). rewrite (B1 ltac:(lia)) in *. clear B1 b.
    assert (L1 : leaves [(pg, npages t len)] s s1) by (apply put_leaves; assumption).
    assert (Ea : ptr_add t pg len = pg + len) by (unfold ptr_add, as_usize; apply Z.mod_small; lia).
    pose proof (view_leaves h MapReadWrite (hi_dword 0) (lo_dword 0) len (ptr_add t pg len) s1 Hl) as H2.
    destruct (map_view t h MapReadWrite (hi_dword 0) (lo_dword 0) len (ptr_add t pg len) s1) as [[b|e| | |] s2].
    - destruct H2 as (C1 & C2 & C3 & C4 & C5 & C6). rewrite Ea in C1. rewrite (C1 ltac:(lia)) in *. split; [reflexivity|]. split; [exact B4|].
      exact (leaves_trans [_] [_] _ _ _ L1 (put_leaves _ _ _ _ C5 C6)).
    - pose proof (leaves_post _ _ _ _ L1 (leaves_alike _ _ (proj1 H2) (proj2 H2))) as L2.
      unfold no_result, wout. pose proof (shrinks_unmap pg s2) as [S1 S2 _ _].
      assert (L3 : leaves [] s2 (snd (unmap_view t pg s2))) by (split; intros a n H; left; [apply S1, H|rewrite S2 in H; exact H]).
      destruct (unmap_view t pg s2) as [[[]|x| | |] s3]; right; (split; [exact B4|exact (leaves_post _ _ _ _ L2 L3)]).
    - right. split; [exact B4|]. exact (leaves_post _ _ _ _ L1 (leaves_alike _ _ (proj1 H2) (proj2 H2))).
    - right. split; [exact B4|]. exact (leaves_post _ _ _ _ L1 (leaves_alike _ _ (proj1 H2) (proj2 H2))).
    - right. split; [exact B4|]. exact (leaves_post _ _ _ _ L1 (leaves_alike _ _ (proj1 H2) (proj2 H2))).
  Qed.
  Definition sized (len full : Z) (l : list (Z * Z)) : Prop := Forall (fun x => snd x = npages t len \/ snd x = npages t full) l.
  Lemma attempt_leaves h len full pg s s' : 0 < len -> reserve t full s = (Ret pg, s') ->
    match map_ring_handle t h len pg s' with
    | (Ret b, s2) => leaves (two_views b len) s s2
    | (_, s2) => exists l, (length l <= 1)%nat /\ sized len full l /\ leaves l s s2
    end.
  Proof.
    intros Hl E. pose proof (reserve_leaves full s) as R. rewrite E in R. destruct R as (P0 & V & R). pose proof (handle_leaves h len pg s' Hl P0) as H.
    destruct R as [R|[R0 R]].
    - pose proof (leaves_alike _ _ V R) as L0. destruct (map_ring_handle t h len pg s') as [[b|e| | |] s2].
      + destruct H as (-> & _ & H). exact (leaves_pre _ _ _ _ L0 H).
      + destruct H as [H|[_ H]]; [exists []|exists [(pg, npages t len)]]; (split; [cbn; lia|]); (split; [repeat constructor|]); exact (leaves_pre _ _ _ _ L0 H).
      + destruct H as [H|[_ H]]; [exists []|exists [(pg, npages t len)]]; (split; [cbn; lia|]); (split; [repeat constructor|]); exact (leaves_pre _ _ _ _ L0 H).
      + destruct H as [H|[_ H]]; [exists []|exists [(pg, npages t len)]]; (split; [cbn; lia|]); (split; [repeat constructor|]); exact (leaves_pre _ _ _ _ L0 H).
      + destruct H as [H|[_ H]]; [exists []|exists [(pg, npages t len)]]; (split; [cbn; lia|]); (split; [repeat constructor|]); exact (leaves_pre _ _ _ _ L0 H).
    - assert (L0 : leaves [(pg, npages t full)] s s').
      { split; intros a n Hn; [rewrite V in Hn; auto|]. rewrite R in Hn. unfold put in Hn. destruct (Z.eqb_spec a pg) as [->|]; [|auto]. right. left. congruence. }
      assert (Bad : forall x, leaves [] s' x \/ (n_resv s' pg = None /\ leaves [(pg, npages t len)] s' x) ->
        exists l, (length l <= 1)%nat /\ sized len full l /\ leaves l s x).
      { intros x [H0|[H0 _]]; [|contradiction]. exists [(pg, npages t full)]. split; [cbn; lia|]. split; [constructor; [right; reflexivity|constructor]|].
        exact (leaves_post _ _ _ _ L0 H0). }
      destruct (map_ring_handle t h len pg s') as [[b|e| | |] s2]; try exact (Bad _ H). destruct H as (_ & H & _). contradiction.
  Qed.
  Lemma loop_leaves h len full : 0 < len -> forall more s,
    match ring_loop t more h len full s with
    | (Ret b, s') => exists l, (length l <= more)%nat /\ sized len full l /\ leaves (l ++ two_views b len) s s'
    | (_, s') => exists l, (length l <= S more)%nat /\ sized len full l /\ leaves l s s'
    end.
  Proof.
    intros Hl.
    assert (One : forall s, match ring_loop t 0 h len full s with
      | (Ret b, s') => leaves (two_views b len) s s'
      | (_, s') => exists l, (length l <= 1)%nat /\ sized len full l /\ leaves l s s' end).
    { intros s. cbn [ring_loop]. unfold wbind. pose proof (reserve_leaves full s) as R. destruct (reserve t full s) as [[pg|e| | |] s1] eqn:E;
        try (exists []; split; [cbn; lia|]; split; [constructor|apply leaves_alike; apply R]).
      pose proof (attempt_leaves h len full pg s s1 Hl E) as A. destruct (map_ring_handle t h len pg s1) as [[b|e| | |] s2]; exact A. }
    induction more as [|more IH]; intros s.
    - specialize (One s). destruct (ring_loop t 0 h len full s) as [[b|e| | |] s1]; try exact One. exists []. split; [cbn; lia|]. split; [constructor|exact One].
    - cbn [ring_loop]. unfold wbind. pose proof (reserve_leaves full s) as R. destruct (reserve t full s) as [[pg|e| | |] s1] eqn:E;
        try (exists []; split; [cbn; lia|]; split; [constructor|apply leaves_alike; apply R]).
      pose proof (attempt_leaves h len full pg s s1 Hl E) as A.
      destruct (map_ring_handle t h len pg s1) as [[b|e| | |] s2];
        [exists []; split; [cbn; lia|]; split; [constructor|exact A]| |destruct A as (l & A1 & A2 & A3); exists l; (split; [lia|auto])..].
      destruct A as (l & A1 & A2 & A3). specialize (IH s2). destruct (ring_loop t more h len full s2) as [[b|x| | |] s3]; destruct IH as (m & B1 & B2 & B3);
        exists (l ++ m); (split; [rewrite app_length; lia|]); (split; [apply Forall_app; split; assumption|]); rewrite <- ?app_assoc; exact (leaves_trans _ _ _ _ _ A3 B3).
  Qed.
  Lemma create_leaves op file pr len s :
    (forall a, n_view (snd (handle_new t op file pr len s)) a = n_view s a) /\ (forall a, n_resv (snd (handle_new t op file pr len s)) a = n_resv s a).
  Proof.
    unfold handle_new, win_call, create_mapping. match goal with |- context [call ?c ?k s] => destruct (call_run c k s) as (s1 & A1 & _ & H); destruct (call c k s) as [r s'] end.
    cbn [fst snd] in H.
    assert (A : (forall a, n_view s' a = n_view s a) /\ (forall a, n_resv s' a = n_resv s a)).
    { destruct H as [(e & _ & A2 & _)|(h & f & _ & A2 & _)]; [exact (alike_space _ _ _ _ A1 (fun _ => eq_refl) (fun _ => eq_refl) A2)|].
      cbv zeta in A2. refine (alike_space _ _ _ _ A1 _ _ A2); intros a; (destruct (n_sec s1 h); [reflexivity|]); (destruct (h <=? 0); [reflexivity|]);
        (destruct file as [fd|]; [destruct (w_fd (n_w s1) fd) as [x|]; [|reflexivity]; repeat (destruct (_ : bool); [reflexivity|]); reflexivity|destruct (_ || _); reflexivity]). }
    destruct r; exact A.
  Qed.
  Lemma close_leaves h s : leaves [] s (snd (close_handle h s)).
  Proof. split; auto. Qed.
  Lemma ring_leaves hint s : is_usize t hint ->
    match win_ring_new t hint s with
    | (Ret a, s') => exists l, (length l <= 5)%nat /\ ring_sized t hint l /\ leaves (l ++ two_views (ra_ptr a) (ra_len a)) s s'
    | (_, s') => exists l, (length l <= 6)%nat /\ ring_sized t hint l /\ leaves l s s'
    end.
  Proof.
    intros Hh. pose proof (round_cases t Ht hint Hh) as RC. unfold win_ring_new, wbind at 1, wout at 1.
    assert (None_ : forall s', leaves [] s s' -> exists l, (length l <= 6)%nat /\ ring_sized t hint l /\ leaves l s s') by (intros s' L; exists []; split; [cbn; lia|]; split; [constructor|exact L]).
    destruct (size_round t (size_alloc t) hint) as [len|e| | |]; try (apply None_, leaves_refl).
    destruct RC as [U RC]. unfold win_map_ring, wbind, wout, wret.
    destruct (umul t 2 len) as [full|e| | |] eqn:Ef; try (apply None_, leaves_refl).
    assert (Efull : full = (2 * len) mod 2 ^ t_bits t).
    { unfold umul, wrap in Ef. unfold is_usize in U. destruct ((0 <=? 2 * len) && (2 * len <? 2 ^ t_bits t)) eqn:R.
      - assert (E : full = 2 * len) by congruence. rewrite E. symmetry. apply Z.mod_small. apply andb_true_iff in R as [R1 R2]. apply Z.leb_le in R1. apply Z.ltb_lt in R2. lia.
      - destruct (t_checks t); [discriminate Ef|congruence]. }
    pose proof (create_leaves RingAllocate None PageReadWrite full s) as C. destruct (handle_new t RingAllocate None PageReadWrite full s) as [[h|e| | |] s1] eqn:Eh;
      try (apply None_, leaves_alike; apply C).
    assert (Hl : 0 < len).
    { destruct (Z.eq_dec len 0) as [->|N]; [exfalso|unfold is_usize in U; lia]. replace full with 0 in Eh by (rewrite Efull; reflexivity).
      unfold handle_new, win_call, create_mapping in Eh. change (dwords (hi_dword 0) (lo_dword 0)) with 0 in Eh.
      match type of Eh with context [call ?c ?k s] => destruct (call_run c k s) as (s2 & _ & _ & H); destruct (call c k s) as [r s3] end.
      cbn [fst snd] in H. destruct H as [(e & -> & _)|(a & f & Er & _)]; [discriminate Eh|]. cbv beta zeta in Er. cbn [Z.eqb orb] in Er.
      destruct (n_sec s2 a); [|destruct (a <=? 0)]; cbn [fst] in Er; subst r; discriminate Eh. }
    specialize (RC Hl).
    pose proof (loop_leaves h len full Hl 5 s1) as L. unfold scoped.
    assert (Fs : forall l, sized len full l -> ring_sized t hint l).
    { intros l F. unfold ring_sized. eapply Forall_impl; [|exact F]. intros x Fx. exists len. split; [exact RC|]. rewrite <- Efull. exact Fx. }
    pose proof (leaves_alike _ _ (proj1 C) (proj2 C)) as L0. cbn [snd] in L0.
    destruct (ring_loop t 5 h len full s1) as [[b|e| | |] s2]; destruct L as (l & A1 & A2 & A3); exists l; cbn [ra_ptr ra_len]; (split; [exact A1|]); (split; [exact (Fs _ A2)|]);
      refine (leaves_post _ _ _ _ (leaves_pre _ _ _ _ L0 A3) _); apply close_leaves.
  Qed.

  (** ** Programs *)
  Lemma ring_log hint s : is_usize t hint ->
    (exists l, calls s (snd (win_ring_new t hint s)) l) /\ forall h, n_sec (snd (win_ring_new t hint s)) h = n_sec s h.
  Proof.
    intros Hh. pose proof (round_cases t Ht hint Hh) as RC. unfold win_ring_new, wbind, wout.
    assert (N : (exists l, calls s s l) /\ forall h, n_sec s h = n_sec s h) by (split; [exists []; reflexivity|reflexivity]).
    destruct (size_round t (size_alloc t) hint) as [len|e| | |]; try exact N. destruct RC as [U _].
    destruct (win_map_ring t len s) as [r s1] eqn:E. apply (win_map_ring_spec t Ht) in E as (l & C & _ & R & _); [|exact U].
    assert (H : (exists l, calls s s1 l) /\ forall h, n_sec s1 h = n_sec s h) by (split; [exists l; exact C|exact (sr_sec _ _ R)]).
    destruct r; exact H.
  Qed.
  Lemma ring_step hint g : g_s (snd (act_step t (ARing hint) g)) = snd (win_ring_new t hint (g_s g)).
  Proof. cbn [act_step]. destruct (win_ring_new t hint (g_s g)) as [r s']. destruct r; reflexivity. Qed.
  Lemma step_sec a g h : act_ok t a -> prog_ok t g -> n_sec (g_s (snd (act_step t a g))) h = n_sec (g_s g) h.
  Proof.
    intros Ha K. destruct a; try (apply (no_new_resv _ g Ha K); [exact Logic.I|intros k' v Hd; discriminate Hd]).
    - rewrite ring_step. apply ring_log, Ha.
    - destruct (drop_state k g) as (s' & [_ _ S3 _] & [[_ E]|(x & _ & E)]); rewrite E; [reflexivity|apply S3].
  Qed.
  Lemma run_sec hs : forall g, Forall (act_ok t) hs -> prog_ok t g -> forall h, n_sec (g_s (act_run t hs g)) h = n_sec (g_s g) h.
  Proof.
    induction hs as [|a hs IH]; intros g F K h; [reflexivity|]. apply Forall_cons_iff in F as [Ha F]. cbn [act_run].
    destruct (step_spec t Ht a g Ha K) as (X & T & Y & S1). rewrite (IH _ F (st_ok _ _ _ _ _ _ _ S1)). apply step_sec; assumption.
  Qed.
  Lemma run_kept hs : forall g, Forall (act_ok t) hs -> prog_ok t g -> forall b, orphan t g b ->
    orphan t (act_run t hs g) b /\ n_view (g_s (act_run t hs g)) b = n_view (g_s g) b.
  Proof.
    induction hs as [|a hs IH]; intros g F K b O; [auto|]. apply Forall_cons_iff in F as [Ha F]. cbn [act_run].
    destruct (step_spec t Ht a g Ha K) as (X & T & Y & S1). destruct (orphans_kept a g Ha K b O) as [O1 E1].
    destruct (IH _ F (st_ok _ _ _ _ _ _ _ S1) b O1) as [O2 E2]. split; [exact O2|congruence].
  Qed.
  Lemma run_calm hs : forall g, tidy_run t hs g -> prog_ok t g ->
    (forall b, orphan t (act_run t hs g) b -> orphan t g b) /\ (forall a, n_resv (g_s (act_run t hs g)) a = n_resv (g_s g) a).
  Proof.
    induction hs as [|a hs IH]; intros g Td K; [auto|]. cbn [tidy_run act_run] in *. destruct Td as (Ha & Rl & Df & Td).
    destruct (step_spec t Ht a g Ha K) as (X & T & Y & S1). destruct (IH _ Td (st_ok _ _ _ _ _ _ _ S1)) as [I1 I2].
    assert (Rl' : match a with ARing _ | ADrop _ => released (g_s g) (g_s (snd (act_step t a g))) | _ => True end) by (destruct a; (exact Logic.I || exact Rl)).
    split.
    - intros b O. apply (no_new_orphans a g b Ha K Rl' Df), I1, O.
    - intros b. rewrite I2. apply (no_new_resv a g Ha K Rl' Df).
  Qed.

  Lemma wpfrom_reached s p : wpfrom t s p -> wpreached t p.
  Proof. induction 1; [apply wpr_start|apply wpr_step]; assumption. Qed.
  Lemma wpfrom_history s p : wpfrom t s p -> fresh_start s /\ exists hs, Forall (act_ok t) hs /\ wp_g p = act_run t hs (holds_nothing s).
  Proof.
    induction 1 as [Fs|p c R [Fs IH] Hc]; [split; [exact Fs|]; exists []; auto|]. split; [exact Fs|].
    destruct IH as (h & F & E). destruct (wpstep_traced t Ht c p (wpreached_ok t Ht p (wpfrom_reached _ _ R)) Hc) as (hs & T).
    exists (h ++ hs). split; [apply Forall_app; split; [exact F|exact (tr_ok _ _ _ _ _ T)]|].
    rewrite act_run_app, <- E. exact (tr_run _ _ _ _ _ T).
  Qed.
  Lemma wp_tiled s p : wpfrom t s p -> tiled t s (g_s (wp_g p)) /\ forall h, n_sec (g_s (wp_g p)) h = n_sec s h.
  Proof.
    intros R. destruct (wpfrom_history _ _ R) as (Fs & hs & F & E). rewrite E. split.
    - apply (goes_run t s hs (holds_nothing s)). apply tiled_start, Fs.
    - intros h. rewrite run_sec; [reflexivity|exact F|]. apply start_ok, Fs.
  Qed.
  Lemma orphans_ok c p b : wpok t p -> wpcall_ok t c -> orphan t (wp_g p) b ->
    orphan t (wp_g (snd (wpstep t c p))) b /\ n_view (g_s (wp_g (snd (wpstep t c p)))) b = n_view (g_s (wp_g p)) b.
  Proof.
    intros K Hc O. destruct (wpstep_traced t Ht c p K Hc) as (hs & T). rewrite (tr_run _ _ _ _ _ T).
    apply run_kept; [exact (tr_ok _ _ _ _ _ T)|exact (wk_prog _ _ K)|exact O].
  Qed.
  Lemma wp_kept s c p : wpfrom t s p -> wpcall_ok t c -> keeps_orphans t (wp_g p) (wp_g (snd (wpstep t c p))).
  Proof.
    intros R Hc. pose proof (wpreached_ok t Ht p (wpfrom_reached _ _ R)) as K. destruct (wpstep_traced t Ht c p K Hc) as (hs & T).
    rewrite (tr_run _ _ _ _ _ T). split.
    - apply run_kept; [exact (tr_ok _ _ _ _ _ T)|exact (wk_prog _ _ K)].
    - apply (goes_run t s hs (wp_g p)), wp_tiled, R.
  Qed.

  (** A call is one call of WinMapModel.v, or only reads and writes bytes. *)
  Lemma wp_one c p : wpok t p -> wpcall_ok t c ->
    let p' := snd (wpstep t c p) in
    wp_g p' = wp_g p \/
    (exists hs, tidy_run t hs (wp_g p) /\ wp_g p' = act_run t hs (wp_g p)) \/
    (exists k, wp_drops c k /\ wp_g p' = snd (act_step t (ADrop k) (wp_g p))) \/
    (exists hint, wp_makes c hint /\ is_usize t hint /\ wp_g p' = snd (act_step t (ARing hint) (wp_g p))) \/
    (exists a, act_ok t a /\ (forall k, a <> ADrop k) /\ (forall hint, a <> ARing hint) /\ wp_g p' = snd (act_step t a (wp_g p))).
  Proof.
    intros K Hc. cbv zeta.
    assert (Calm : match c with WCall _ _ | WICall _ _ => exists hs, tidy_run t hs (wp_g p) /\ wp_g (snd (wpstep t c p)) = act_run t hs (wp_g p) | _ => True end).
    { destruct (wpstep_traced t Ht c p K Hc) as (hs & T). pose proof (tr_calm _ _ _ _ _ T) as Tc. destruct c; auto; (exists hs; split; [exact Tc|exact (tr_run _ _ _ _ _ T)]). }
    assert (New : forall mk hint, is_usize t hint -> wp_g (snd (wp_new t mk hint p)) = snd (act_step t (ARing hint) (wp_g p))).
    { intros mk hint Hh. unfold wp_new. cbn [act_step]. destruct (win_ring_new t hint (g_s (wp_g p))) as [[a|e| | |] s']; reflexivity. }
    destruct c as [a|hint|hint|k o|k o|k]; auto.
    - cbn [wpstep wpcall_ok] in *. destruct (on_maps p a) eqn:O; [|left; reflexivity]. right. right.
      assert (E : wp_g (snd (let '(r, g') := act_step t a (wp_g p) in (WGot r, {| wp_g := g'; wp_ring := wp_ring p |}))) = snd (act_step t a (wp_g p)))
        by (destruct (act_step t a (wp_g p)); reflexivity).
      destruct a; try (right; right; eexists; split; [exact Hc|]; split; [intros k'; discriminate|]; split; [intros h'; discriminate|exact E]).
      left. exists k. split; [right; reflexivity|exact E].
    - right. right. right. left. exists hint. split; [left; reflexivity|]. split; [exact Hc|]. apply New, Hc.
    - right. right. right. left. exists hint. split; [right; reflexivity|]. split; [exact Hc|]. apply New, Hc.
    - cbn [wpstep]. destruct (wp_ring p k) as [h|] eqn:Hk; [|left; reflexivity]. destruct (wk_ring _ _ K _ _ Hk) as (_ & o & Ho).
      right. right. left. exists k. split; [left; reflexivity|]. cbn [act_step]. rewrite Ho. destruct (win_ring_drop t (h_alloc h) (g_s (wp_g p))) as [r s']. destruct r; reflexivity.
  Qed.
  Lemma ring_explained hint g : prog_ok t g -> is_usize t hint -> let g' := snd (act_step t (ARing hint) g) in
    ((forall b, orphan t g' b -> orphan t g b) /\ (forall a, n_resv (g_s g') a = n_resv (g_s g) a)) \/ refused_release (g_s g) (g_s g').
  Proof.
    intros K Hh g'. assert (L : exists l, calls (g_s g) (g_s g') l) by (unfold g'; rewrite ring_step; apply ring_log, Hh).
    destruct (release_dec _ _ L) as [R|R]; [left|right; exact R].
    assert (Df : drops_filled (ARing hint) g) by (intros k v H; discriminate H). split.
    - intros b. exact (no_new_orphans (ARing hint) g b Hh K R Df).
    - exact (proj1 (no_new_resv (ARing hint) g Hh K R Df)).
  Qed.
  Lemma explained_ok c p : wpok t p -> wpcall_ok t c -> explained t c (wp_g p) (wp_g (snd (wpstep t c p))).
  Proof.
    intros K Hc. pose proof (wk_prog _ _ K) as Kg.
    destruct (wp_one c p K Hc) as [E|[(hs & Td & E)|[(k & Dk & E)|[(hint & Mk & Hh & E)|(a & Ha & Na & Nr & E)]]]].
    - rewrite E. split; auto.
    - rewrite E. destruct (run_calm hs _ Td Kg) as [I1 I2]. split; [intros b O; left; apply I1, O|intros b n H; rewrite I2 in H; auto].
    - split.
      + intros b O. rewrite E in *. destruct (dropped_orphan k _ b Kg O) as [H|(x & H)]; [auto|]. right. left. exists k, x. auto.
      + intros b n. rewrite E. destruct (drop_state k (wp_g p)) as (s' & S & [[_ E1]|(x & _ & E1)]); rewrite E1; auto. cbn. rewrite (sk_resv _ _ S). auto.
    - pose proof (ring_explained hint _ Kg Hh) as H. cbv zeta in H. rewrite <- E in H. destruct H as [[H1 H2]|H].
      + split; [auto|]. intros b n. rewrite H2. auto.
      + assert (F : from_ring c (g_s (wp_g p)) (g_s (wp_g (snd (wpstep t c p))))) by (exists hint; auto). split; auto.
    - rewrite E. assert (Rl : match a with ARing _ | ADrop _ => released (g_s (wp_g p)) (g_s (snd (act_step t a (wp_g p)))) | _ => True end).
      { destruct a; try exact Logic.I; [destruct (Nr _ eq_refl)|destruct (Na _ eq_refl)]. }
      assert (Df : drops_filled a (wp_g p)) by (intros k v H; destruct (Na _ H)).
      split; [intros b O; left; exact (no_new_orphans a _ b Ha Kg Rl Df O)|]. intros b n H. rewrite (proj1 (no_new_resv a _ Ha Kg Rl Df)) in H. auto.
  Qed.
  Lemma wp_explained s c p : wpfrom t s p -> wpcall_ok t c -> explained t c (wp_g p) (wp_g (snd (wpstep t c p))).
  Proof. intros R. apply explained_ok. exact (wpreached_ok t Ht p (wpfrom_reached _ _ R)). Qed.
  Lemma wp_attempt s c p hint : wpfrom t s p -> wpcall_ok t c -> wp_makes c hint -> let '(x, p') := wpstep t c p in
    exists l, (length l <= match x with WNew (Ret _) => 5 | _ => 6 end)%nat /\ ring_sized t hint l /\ new_in t l (wp_g p) (wp_g p').
  Proof.
    intros R Hc Mk. pose proof (wpreached_ok t Ht p (wpfrom_reached _ _ R)) as K. pose proof (wk_prog _ _ K) as Kg.
    assert (Hh : is_usize t hint) by (destruct Mk as [-> | ->]; exact Hc).
    assert (G : forall mk, let '(x, p') := wp_new t mk hint p in
      exists l, (length l <= match x with WNew (Ret _) => 5 | _ => 6 end)%nat /\ ring_sized t hint l /\ new_in t l (wp_g p) (wp_g p')).
    { intros mk. unfold wp_new. pose proof (ring_leaves hint (g_s (wp_g p)) Hh) as L.
      assert (Bad : forall l s', leaves l (g_s (wp_g p)) s' -> new_in t l (wp_g p) (g_set (wp_g p) s')).
      { intros l s' [L1 L2]. split; [|exact L2]. intros a n H [V N]. cbn in *. destruct (L1 a n H) as [H1|H1]; [left|right; exact H1]. split; [congruence|exact N]. }
      destruct (win_ring_new t hint (g_s (wp_g p))) as [[a|e| | |] s'] eqn:E; destruct L as (l & A1 & A2 & L); exists l; (split; [exact A1|]); (split; [exact A2|]);
        try exact (Bad _ _ L).
      apply (win_ring_new_spec t Ht) in E as E0; [|exact Hh]. destruct L as [L1 L2]. cbn [wp_g]. split.
      - intros b n H [V N]. cbn in *. destruct (L1 b n H) as [H1|H1].
        + left. split; [congruence|]. intros k x Hx. apply (N k x). rewrite put_other; [exact Hx|]. pose proof (po_keys _ _ Kg _ _ Hx). lia.
        + apply in_app_or in H1 as [H1|H1]; [right; exact H1|exfalso]. apply (N (g_cnt (wp_g p)) _ (put_same _ _ _)). cbn.
          destruct H1 as [H1|[H1|[]]]; injection H1 as <- _; auto.
      - intros b n H. cbn in H. destruct (L2 b n H) as [H1|H1]; [left; exact H1|]. apply in_app_or in H1 as [H1|H1]; [right; exact H1|exfalso].
        destruct (wp_tiled _ _ R) as [Td _]. destruct (goes_step t s (ARing hint) (wp_g p) Td) as [Td' _]. rewrite ring_step, E in Td'. cbn [snd] in Td'.
        destruct E0 as (_ & E0 & Ul). apply (win_map_ring_spec t Ht) in E0 as (l0 & _ & _ & _ & (m & En & Wr) & _); [|exact Ul].
        destruct (wr_view _ _ _ _ _ _ Wr) as [V1 V2]. rewrite <- En in V2.
        destruct H1 as [H1|[H1|[]]]; injection H1 as <- _; [rewrite (td_one _ _ _ Td' _ _ V1) in H|rewrite (td_one _ _ _ Td' _ _ V2) in H]; discriminate H. }
    destruct Mk as [-> | ->]; apply G.
  Qed.
End Orphans.
