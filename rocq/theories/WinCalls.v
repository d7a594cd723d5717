(** Lemmas about the Windows calls over single views. *)
From Coq Require Import Lia.
From Verif Require Import Base Spec ErrorModel SizeModel OsModel MapModel MapSpec RingMapModel RingMapSpec SizeProofs OsProofs
  MapProofs MirrorProofs RingMapClaims WinModel WinSpec WinProofs.

Section Win.
  Variable t : target.
  Hypothesis Ht : good_target t.
  Notation P := (t_page t).
  Notation G := (t_alloc t).
  Let HP : 0 < P.
  Proof. exact (pow2_pos _ (proj1 (proj2 Ht))). Qed.
  Let HG : 0 < G.
  Proof. exact (pow2_pos _ (proj1 (proj2 (proj2 Ht)))). Qed.

  Lemma create_file_spec fd pr s r s' :
    create_mapping t (Some fd) pr (hi_dword 0) (lo_dword 0) s = (r, s') ->
    n_log s' = (WCreate, ok r) :: n_log s /\
    match r with
    | Ret h => n_sec s h = None /\ 0 < h /\ exists f, w_fd (n_w s) fd = Some f /\ (pr = PageReadWrite -> fd_w f = true) /\
        n_sec s' = put (n_sec s) h (Some {| sc_obj := fd_obj f; sc_size := o_size (w_obj (n_w s) (fd_obj f));
                                            sc_w := match pr with PageReadWrite => true | _ => false end |}) /\
        quiet (n_w s) (n_w s') /\ n_view s' = n_view s /\ n_resv s' = n_resv s /\ n_cache s' = n_cache s
    | Err _ => wq s s'
    | _ => False
    end.
  Proof.
    intros H. unfold create_mapping in H. change (dwords (hi_dword 0) (lo_dword 0)) with 0 in H. cbn [Z.eqb] in H. apply call_inv in H.
    2:{ clear. intros a f s r s' H. cbv zeta in H. destruct (n_sec s a); [injection H as <- <-; auto|]. destruct (a <=? 0); [injection H as <- <-; auto|].
        destruct (w_fd (n_w s) fd) as [g|]; [|injection H as <- <-; auto].
        destruct (_ =? 0); [injection H as <- <-; auto|].
        destruct (match pr with PageReadWrite => negb (fd_w g) | _ => false end); [injection H as <- <-; auto|].
        destruct (_ <? _); injection H as <- <-; auto. }
    destruct H as [HL H]. split; [exact HL|]. destruct H as [(e & -> & Q)|(h & f & o & s2 & Ho & H & Q)]; [exact Q|].
    cbv zeta in H. cbn [n_sec with_w with_env n_w w_next set_orc w_obj w_fd] in H.
    assert (QQ : wq (with_w (with_env s (tl (n_env s))) (set_orc (n_w s) o)) s' -> wq s s').
    { intros [[A B C D E] F I J K]. split; try assumption. split; assumption. }
    destruct (n_sec s h) eqn:Eh; [injection H as <- <-; exact (QQ Q)|].
    destruct (Z.leb_spec h 0); [injection H as <- <-; exact (QQ Q)|].
    destruct (w_fd (n_w s) fd) as [g|] eqn:Eg; [|injection H as <- <-; exact (QQ Q)].
    destruct (Z.eqb_spec (o_size (w_obj (n_w s) (fd_obj g))) 0); [injection H as <- <-; exact (QQ Q)|].
    assert (EW : match pr with PageReadWrite => negb (fd_w g) | _ => false end = false -> pr = PageReadWrite -> fd_w g = true).
    { intros X ->. destruct (fd_w g); [reflexivity|discriminate]. }
    destruct (match pr with PageReadWrite => negb (fd_w g) | _ => false end); [injection H as <- <-; exact (QQ Q)|]. specialize (EW eq_refl).
    rewrite Z.ltb_irrefl in H.
    injection H as <- <-. destruct Q as [[A B C D E] F I J K]. cbn in A, B, C, D, E, F, I, J, K.
    split; [exact Eh|]. split; [assumption|]. exists g. split; [reflexivity|]. split; [exact EW|]. split; [exact F|].
    split; [split; assumption|]. auto.
  Qed.

  Lemma pair_rw p : fst (protect_pair p) = PageReadWrite <-> p = ReadWrite.
  Proof. destruct p; cbn; split; congruence. Qed.
  Lemma pair_prot p : access_prot (snd (protect_pair p)) =
    {| pr_r := true; pr_w := prot_writes p; pr_x := match p with ReadExec => true | _ => false end |} /\
    access_shared (snd (protect_pair p)) = win_shares p.
  Proof. destruct p; split; reflexivity. Qed.

  Lemma viewed_of s0 s1 s' c off L base p : w_vm (n_w s1) = w_vm (n_w s0) -> n_view s1 = n_view s0 -> n_resv s1 = n_resv s0 ->
    viewed t s1 s' c (snd (protect_pair p)) off L base ->
    sc_w c = match fst (protect_pair p) with PageReadWrite => true | _ => false end -> view_of t s0 s' (sc_obj c) off L p base.
  Proof.
    intros E1 E2 E3 [A1 A2 A3 A4 A5 A6 A7 A8 A9 A10 _ _ _ _ _ _] EW.
    pose proof (npages_bounds t HP L). apply range_ok_iff in A5 as (R1 & R2 & R3).
    destruct (pair_prot p) as [PP PS]. rewrite PP, PS in A8.
    split; [exact A3|]. split; [exact A1|]. split; [exact R1|]. split; [lia|]. split.
    - split.
      + rewrite A9. apply put_same.
      + intros q Hq. rewrite <- E1. apply A7, Hq.
      + intros q Hq. rewrite A8, in_pages_no by exact Hq. congruence.
      + intros a Ha. rewrite A9, put_other by exact Ha. congruence.
      + intros a. congruence.
    - intros q Hq. eexists. split; [rewrite A8, in_pages_yes by exact Hq; reflexivity|]. cbn. rewrite EW.
      split; [reflexivity|]. split; [reflexivity|]. do 5 (split; [reflexivity|]). destruct p; reflexivity.
  Qed.

  (** The scope of the handle around a single view. *)
  Lemma scoped_view h op acc off len s r s' : 0 <= off < 2 ^ 64 ->
    scoped h (handle_view t h op acc off len 0) s = (r, s') ->
    exists s2, s' = with_log (with_sec s2 (put (n_sec s2) h None)) ((WClose h, true) :: n_log s2) /\
    match r with
    | Ret pg => n_log s2 = (WMap 0, true) :: n_log s /\ exists c, n_sec s h = Some c /\
        viewed t s s2 c acc off (if len =? 0 then sc_size c - off else len) pg
    | Err e => n_log s2 = (WMap 0, false) :: n_log s /\ wq s s2 /\ exists x, e = last_os_error op x
    | _ => False
    end.
  Proof.
    intros Ho H. unfold scoped in H. destruct (handle_view t h op acc off len 0 s) as [r2 s2] eqn:E.
    assert (GH : r = r2 /\ s' = with_log (with_sec s2 (put (n_sec s2) h None)) ((WClose h, true) :: n_log s2)) by (injection H as <- <-; auto).
    destruct GH as [-> ->]. exists s2. split; [reflexivity|].
    apply win_call_run in E. destruct r2 as [pg|e| | |].
    - apply (map_view_spec t h acc off len 0 s _ _ Ho) in E as (L & _ & c & Hc & _ & V). split; [exact L|]. eauto.
    - destruct E as (x & E & ->). apply (map_view_spec t h acc off len 0 s _ _ Ho) in E as (L & Q). eauto.
    - apply (map_view_spec t h acc off len 0 s _ _ Ho) in E as (_ & []).
    - apply (map_view_spec t h acc off len 0 s _ _ Ho) in E as (_ & []).
    - apply (map_view_spec t h acc off len 0 s _ _ Ho) in E as (_ & []).
  Qed.

  Lemma win_map_file_spec fd off len p s r s' : is_usize t off -> win_map_file t fd off len p s = (r, s') ->
    exists l, calls s s' l /\ same_rest s s' /\ w_next (n_w s') = w_next (n_w s) /\
    match r with
    | Ret pg => exists f h, l = [(WClose h, true); (WMap 0, true); (WCreate, true)] /\ w_fd (n_w s) fd = Some f /\
        (p = ReadWrite -> fd_w f = true) /\ off mod G = 0 /\
        let size := o_size (w_obj (n_w s) (fd_obj f)) in
        let L := if len =? 0 then size - off else len in
        off + L <= size /\ view_of t s s' (fd_obj f) off L p pg
    | Err e => same_space s s' /\ exists op x, e = last_os_error op x /\
        (op = MapFileHandle /\ l = [(WCreate, false)] \/
         op = MapFileView /\ exists h, l = [(WClose h, true); (WMap 0, false); (WCreate, true)])
    | _ => False
    end.
  Proof.
    intros Ho H. unfold win_map_file in H. rewrite (surjective_pairing (protect_pair p)) in H. cbv beta iota zeta in H.
    pose proof (word_64 t Ht) as H64. unfold is_usize in Ho. assert (Ho' : 0 <= off < 2 ^ 64) by lia.
    apply wbind_run in H as [(h & s1 & E1 & H)|[(e & E1 & ->)|[[E1 ->]|[[E1 ->]|[E1 ->]]]]];
      apply win_call_run in E1; [|destruct E1 as (x & E1 & ->)| | |]; apply create_file_spec in E1 as [L1 E1]; try contradiction.
    2:{ destruct (wq_same _ _ E1) as [Q1 Q2]. exists [(WCreate, false)]. split; [exact L1|]. split; [exact Q2|].
        split; [apply (q_next _ _ (wq_w _ _ E1))|]. split; [exact Q1|]. exists MapFileHandle. eexists. split; [reflexivity|]. auto. }
    destruct E1 as (C1 & C2 & f & C3 & C4 & C5 & [V1 O1 N1 F1 S1] & C6 & C7 & C8).
    apply (scoped_view _ _ _ _ _ _ _ _ Ho') in H as (s2 & -> & H).
    destruct r as [pg|e| | |]; try contradiction.
    - destruct H as (L2 & c & Hc & V). rewrite C5, put_same in Hc. injection Hc as <-. cbn [sc_size sc_obj] in V.
      pose proof V as [A1 A2 A3 A4 _ _ _ _ _ _ A11 A12 A13 A14 A15 A16]. cbn [sc_size] in A4.
      exists [(WClose h, true); (WMap 0, true); (WCreate, true)].
      split; [unfold calls; cbn; rewrite L2, L1; reflexivity|].
      split. { split; cbn; intros; try congruence. destruct (Z.eq_dec h0 h) as [->|N]; [rewrite put_same; congruence|].
               rewrite put_other, A11, C5, put_other by exact N. reflexivity. }
      split; [cbn; congruence|]. exists f, h. split; [reflexivity|]. split; [exact C3|]. split; [intros ->; apply C4; reflexivity|].
      split; [exact A2|]. cbv zeta. split; [exact A4|].
      pose proof (viewed_of s s1 s2 _ off _ pg p V1 C6 C7 V eq_refl) as (B1 & B2 & B3 & B4 & [B5 B6 B7 B8 B9] & B10). cbn [sc_obj] in B10.
      split; [exact B1|]. split; [exact B2|]. split; [exact B3|]. split; [exact B4|]. split; [split; assumption|exact B10].
    - destruct H as (L2 & Q & x & ->). destruct Q as [[V2 O2 N2 F2 S2] D1 D2 D3 D4].
      exists [(WClose h, true); (WMap 0, false); (WCreate, true)].
      split; [unfold calls; cbn; rewrite L2, L1; reflexivity|].
      split. { split; cbn; intros; try congruence. destruct (Z.eq_dec h0 h) as [->|N]; [rewrite put_same; congruence|].
               rewrite put_other, D1, C5, put_other by exact N. reflexivity. }
      split; [cbn; congruence|]. split; [split; cbn; intros; congruence|]. exists MapFileView. eexists. split; [reflexivity|]. right. eauto.
  Qed.

  Lemma win_map_anon_spec len p s r s' : is_usize t len -> win_map_anon t len p s = (r, s') ->
    exists l, calls s s' l /\ same_rest s s' /\
    match r with
    | Ret pg => exists h, l = [(WClose h, true); (WMap 0, true); (WCreate, true)] /\
        view_of t s s' (w_next (n_w s)) 0 len p pg /\
        (forall i, o_data (w_obj (n_w s') (w_next (n_w s))) i = 0) /\ len <= o_size (w_obj (n_w s') (w_next (n_w s)))
    | Err e => same_space s s' /\ exists op x, e = last_os_error op x /\
        (op = MapAnonymousHandle /\ l = [(WCreate, false)] \/
         op = MapAnonymousView /\ exists h, l = [(WClose h, true); (WMap 0, false); (WCreate, true)])
    | _ => False
    end.
  Proof.
    intros Hl H. unfold win_map_anon in H. rewrite (surjective_pairing (protect_pair p)) in H. cbv beta iota zeta in H.
    pose proof (word_64 t Ht) as H64. unfold is_usize in Hl. assert (Hl' : 0 <= len < 2 ^ 64) by lia.
    apply wbind_run in H as [(h & s1 & E1 & H)|[(e & E1 & ->)|[[E1 ->]|[[E1 ->]|[E1 ->]]]]];
      apply win_call_run in E1; [|destruct E1 as (x & E1 & ->)| | |]; apply (create_anon_spec t _ _ _ _ _ Hl') in E1 as [L1 E1]; try contradiction.
    2:{ destruct (wq_same _ _ E1) as [Q1 Q2]. exists [(WCreate, false)]. split; [exact L1|]. split; [exact Q2|].
        split; [exact Q1|]. exists MapAnonymousHandle. eexists. split; [reflexivity|]. auto. }
    destruct E1 as (C1 & C2 & C3 & (c & C4 & C5 & C6 & C7) & C8 & C9 & C10 & C11 & C12 & C13 & C14 & C15 & C16).
    assert (Z0 : 0 <= 0 < 2 ^ 64) by lia.
    apply (scoped_view _ _ _ _ _ _ _ _ Z0) in H as (s2 & -> & H).
    destruct r as [pg|e| | |]; try contradiction.
    - destruct H as (L2 & c' & Hc & V). rewrite C4, put_same in Hc. injection Hc as <-.
      rewrite (proj2 (Z.eqb_neq len 0) C3) in V.
      pose proof V as [A1 A2 A3 A4 _ _ _ _ _ _ A11 A12 A13 A14 A15 A16].
      exists [(WClose h, true); (WMap 0, true); (WCreate, true)].
      split; [unfold calls; cbn; rewrite L2, L1; reflexivity|].
      split. { split; cbn; intros; try congruence.
        - destruct (Z.eq_dec h0 h) as [->|N]; [rewrite put_same; congruence|]. rewrite put_other, A11, C4, put_other by exact N. reflexivity.
        - rewrite A13, C8, put_other by lia. reflexivity. }
      exists h. split; [reflexivity|].
      pose proof (viewed_of s s1 s2 _ 0 _ pg p C10 C13 C14 V C7) as (B1 & B2 & B3 & B4 & [B5 B6 B7 B8 B9] & B10). rewrite C5 in B10.
      split. { split; [exact B1|]. split; [exact B2|]. split; [exact B3|]. split; [exact B4|]. split; [split; assumption|exact B10]. }
      cbn. rewrite A13, C8, put_same. cbn. split; [reflexivity|]. pose proof (npages_bounds t HP len). lia.
    - destruct H as (L2 & Q & x & ->). destruct Q as [[V2 O2 N2 F2 S2] D1 D2 D3 D4].
      exists [(WClose h, true); (WMap 0, false); (WCreate, true)].
      split; [unfold calls; cbn; rewrite L2, L1; reflexivity|].
      split. { split; cbn; intros; try congruence.
        - destruct (Z.eq_dec h0 h) as [->|N]; [rewrite put_same; congruence|]. rewrite put_other, D1, C4, put_other by exact N. reflexivity.
        - rewrite O2, C8, put_other by lia. reflexivity. }
      split; [split; cbn; intros; congruence|]. exists MapAnonymousView. eexists. split; [reflexivity|]. right. eauto.
  Qed.

  (** ** Calls over mapped pages *)
  Lemma pages_end a len : 0 <= a -> 0 < len -> a / P + npages t (a mod P + len) = (a + len - 1) / P + 1.
  Proof.
    intros Ha Hl. unfold npages. replace (a mod P + len + P - 1) with (a mod P + len - 1 + 1 * P) by lia. rewrite Z.div_add by lia.
    replace (a + len - 1) with (a mod P + len - 1 + (a / P) * P) by (pose proof (Z.div_mod a P ltac:(lia)); lia). rewrite Z.div_add by lia. lia.
  Qed.

  Lemma on_pages_inv c a len (k : Z -> Z -> WT Z unit) s r s' :
    (forall first n s r s', k first n s = (r, s') -> n_log s' = n_log s /\ match r with Ret _ | Err _ => True | _ => False end) ->
    on_pages t c a len k s = (r, s') ->
    n_log s' = (c, ok r) :: n_log s /\
    ((exists e, r = Err e /\ wq s s') \/
     (exists s0 s2, 0 < len /\ wq s s0 /\ k (a / P) (npages t (a mod P + len)) s0 = (r, s2) /\ wq s2 s' /\
        forall p, a / P <= p < a / P + npages t (a mod P + len) -> exists e, w_vm (n_w s) p = Some e)).
  Proof.
    intros Hk H. unfold on_pages in H. apply call_inv in H.
    2:{ clear H. intros x f s1 r1 s2 H. cbv zeta in H. destruct (len <=? 0); [injection H as <- <-; auto|].
        destruct (mapped_range _ _ _); [exact (Hk _ _ _ _ _ H)|]. injection H as <- <-. auto. }
    destruct H as [HL H]. split; [exact HL|]. destruct H as [(e & -> & Q)|(x & f & o & s2 & Ho & H & Q)]; [eauto|].
    cbv zeta in H. set (s0 := with_w (with_env s (tl (n_env s))) (set_orc (n_w s) o)) in *.
    assert (Q0 : wq s s0) by (split; try reflexivity; apply quiet_orc).
    destruct (Z.leb_spec len 0) as [Hl|Hl].
    { left. exists ERROR_INVALID_PARAMETER. assert (GH : r = Err ERROR_INVALID_PARAMETER /\ s2 = s0) by (injection H as <- <-; auto).
      destruct GH as [-> ->]. split; [reflexivity|]. destruct Q as [[A B C D E] F I J K]. split; try assumption. split; assumption. }
    destruct (mapped_range (n_w s0) (a / P) (npages t (a mod P + len))) eqn:Em.
    - right. exists s0, s2. split; [exact Hl|]. split; [exact Q0|]. split; [exact H|]. split; [exact Q|]. exact (proj1 (mapped_range_iff _ _ _) Em).
    - left. exists ERROR_INVALID_ADDRESS. assert (GH : r = Err ERROR_INVALID_ADDRESS /\ s2 = s0) by (injection H as <- <-; auto).
      destruct GH as [-> ->]. split; [reflexivity|]. destruct Q as [[A B C D E] F I J K]. split; try assumption. split; assumption.
  Qed.

  Lemma wq_other s s' : wq s s' -> other_state s s' /\ same_space s s'.
  Proof. intros Q. split; [|exact (wq_space _ _ Q)]. destruct Q as [[A B C D E] F I J K]. repeat split; intros; congruence. Qed.

  Lemma changed_spec g a len s0 s s2 s' (Ha : 0 <= a) (Hl : 0 < len) : wq s s0 -> wq s2 s' ->
    (forall p, a / P <= p < a / P + npages t (a mod P + len) -> exists e, w_vm (n_w s) p = Some e) ->
    s2 = with_w s0 (map_range g (a / P) (npages t (a mod P + len)) (n_w s0)) ->
    other_state s s' /\ pages_changed t g s s' a len.
  Proof.
    intros [[A B C D E] F I J K] [[A' B' C' D' E'] F' I' J' K'] M ->. cbn in *. split.
    - repeat split; intros; congruence.
    - intros p. rewrite A'. cbn. rewrite A. unfold in_pages. rewrite (pages_end a len Ha Hl) in *.
      destruct ((a / P <=? p) && (p <? (a + len - 1) / P + 1)) eqn:Ep; [|reflexivity].
      apply andb_prop in Ep as [E1 E2]. apply Z.leb_le in E1. apply Z.ltb_lt in E2.
      destruct (M p ltac:(lia)) as (e & He). exists e. split; [exact He|]. rewrite He. reflexivity.
  Qed.

  Lemma guarded_spec c op (chk : win -> list Z -> bool) g x a len s r s' : 0 <= a ->
    win_call op (on_pages t c a len (fun first n s => if chk s (page_seq first n) then change g first n s else (Err x, s))) s = (r, s') ->
    other_state s s' /\
    match r with
    | Ret _ => 0 < len /\ pages_changed t g s s' a len
    | Err e => same_space s s' /\ exists c, e = last_os_error op c
    | _ => False
    end.
  Proof.
    intros Ha H. apply win_call_run in H.
    assert (K : forall first n s r s', (if chk s (page_seq first n) then change g first n s else (Err x, s)) = (r, s') ->
      n_log s' = n_log s /\ match r with Ret _ | Err _ => True | _ => False end).
    { clear. intros first n s r s' H. destruct (chk s (page_seq first n)); injection H as <- <-; auto. }
    destruct r as [[]|e| | |]; [|destruct H as (y & H & ->)| | |]; apply (on_pages_inv _ _ _ _ _ _ _ K) in H as (_ & [(e' & E & Q)|(s0 & s2 & Hl & Q0 & E & Q & M)]);
      try discriminate E; try (destruct (chk s0 (page_seq (a / P) (npages t (a mod P + len)))); discriminate E).
    - destruct (chk s0 (page_seq (a / P) (npages t (a mod P + len)))); [|discriminate E].
      assert (E' : s2 = with_w s0 (map_range g (a / P) (npages t (a mod P + len)) (n_w s0))) by (injection E; auto).
      destruct (changed_spec _ _ _ _ _ _ _ Ha Hl Q0 Q M E'). split; [assumption|]. split; assumption.
    - destruct (wq_other _ _ Q). split; [assumption|]. split; [assumption|eauto].
    - destruct (chk s0 (page_seq (a / P) (npages t (a mod P + len)))); [discriminate E|].
      assert (s2 = s0) by (injection E; auto). subst s2.
      assert (QQ : wq s s').
      { destruct Q0 as [[A B C D E0] F I J K0], Q as [[A' B' C' D' E'] F' I' J' K']. split; try congruence. split; congruence. }
      destruct (wq_other _ _ QQ). split; [assumption|]. split; [assumption|eauto].
  Qed.

  Lemma win_protect_spec a len p s r s' : 0 <= a -> win_protect t a len p s = (r, s') ->
    other_state s s' /\
    match r with
    | Ret _ => 0 < len /\ pages_changed t (set_prot (win_prot p)) s s' a len
    | Err e => same_space s s' /\ exists c, e = last_os_error OpProtect c
    | _ => False
    end.
  Proof.
    intros Ha H.
    refine (guarded_spec (WProtect a) OpProtect (fun s => forallb (fun q => match w_vm (n_w s) q with
                           | Some e => negb (pr_w (win_prot p)) || p_maxw e
                           | None => false
                           end)) (set_prot (win_prot p)) ERROR_INVALID_PARAMETER a len s r s' Ha _).
    destruct p; exact H.
  Qed.

  Lemma win_lock_spec a len s r s' : 0 <= a -> win_lock t a len s = (r, s') ->
    other_state s s' /\
    match r with
    | Ret _ => 0 < len /\ pages_changed t (set_lock true) s s' a len
    | Err e => same_space s s' /\ exists c, e = last_os_error OpLock c
    | _ => False
    end.
  Proof. exact (guarded_spec (WLock a) OpLock (fun _ _ => true) (set_lock true) 0 a len s r s'). Qed.

  Lemma win_unlock_spec a len s r s' : 0 <= a -> win_unlock t a len s = (r, s') ->
    other_state s s' /\
    match r with
    | Ret _ => 0 < len /\ pages_changed t (set_lock false) s s' a len
    | Err e => same_space s s' /\ exists c, e = last_os_error OpUnlock c
    | _ => False
    end.
  Proof.
    exact (guarded_spec (WUnlock a) OpUnlock
      (fun s => forallb (fun q => match w_vm (n_w s) q with Some e => p_lock e | None => false end)) (set_lock false) 158 a len s r s').
  Qed.

  (** ** flush *)
  Lemma flush_view_spec a len s r s' : 0 <= a -> flush_view t a len s = (r, s') ->
    let len := flush_len t s a len in
    n_log s' = (WFlushView a, ok r) :: n_log s /\
    match r with
    | Ret _ => 0 < len /\ quiet (n_w s) (n_w s') /\ n_sec s' = n_sec s /\ n_view s' = n_view s /\ n_resv s' = n_resv s /\
        (forall p, a / P <= p <= (a + len - 1) / P -> exists e, w_vm (n_w s) p = Some e) /\
        (forall o i, n_cache s' o i = if syncs t (n_w s) (a / P) (npages t (a mod P + len)) o i then o_data (w_obj (n_w s) o) i else n_cache s o i)
    | Err _ => wq s s'
    | _ => False
    end.
  Proof.
    intros Ha H. unfold flush_view in H. set (len' := flush_len t s a len) in *. clearbody len'. rename len into len0, len' into len. cbv zeta.
    apply on_pages_inv in H.
    2:{ clear. intros first n s r s' H. injection H as <- <-. auto. }
    destruct H as (L & [(e' & -> & Q)|(s0 & s2 & Hl & Q0 & E & Q & M)]); (split; [exact L|]); [exact Q|].
    assert (GE : r = Ret tt /\ s2 = with_cache s0 (fun o i => if syncs t (n_w s0) (a / P) (npages t (a mod P + len)) o i then o_data (w_obj (n_w s0) o) i else n_cache s0 o i)).
    { injection E as <- <-. auto. }
    destruct GE as [-> ->]. destruct Q0 as [[A B C D E0] F I J K0], Q as [[A' B' C' D' E'] F' I' J' K']. cbn in *.
    split; [exact Hl|]. split; [split; congruence|]. do 3 (split; [congruence|]). split.
    - intros p Hp. apply M. rewrite (pages_end a len Ha Hl). lia.
    - intros o i. rewrite K'. rewrite B, K0. assert (ES : syncs t (n_w s0) = syncs t (n_w s)) by (unfold syncs; rewrite A; reflexivity).
      rewrite ES. reflexivity.
  Qed.

  Lemma flush_file_spec fd s r s' : flush_file fd s = (r, s') ->
    n_log s' = (WFlushFile fd, ok r) :: n_log s /\
    match r with
    | Ret _ => exists f, w_fd (n_w s) fd = Some f /\ fd_w f = true /\ w_vm (n_w s') = w_vm (n_w s) /\ w_fd (n_w s') = w_fd (n_w s) /\
        w_fs (n_w s') = w_fs (n_w s) /\ w_next (n_w s') = w_next (n_w s) /\ n_sec s' = n_sec s /\ n_view s' = n_view s /\ n_resv s' = n_resv s /\ n_cache s' = n_cache s /\
        w_obj (n_w s') = put (w_obj (n_w s)) (fd_obj f) {| o_size := o_size (w_obj (n_w s) (fd_obj f));
           o_data := o_data (w_obj (n_w s) (fd_obj f)); o_disk := n_cache s (fd_obj f) |}
    | Err _ => wq s s'
    | _ => False
    end.
  Proof.
    intros H. unfold flush_file in H. apply call_inv in H.
    2:{ clear. intros a f s r s' H. destruct (w_fd (n_w s) fd) as [g|]; [|injection H as <- <-; auto]. destruct (negb (fd_w g)); injection H as <- <-; auto. }
    destruct H as [HL H]. split; [exact HL|]. destruct H as [(e & -> & Q)|(x & f & o & s2 & Ho & H & Q)]; [exact Q|].
    cbn [n_w with_w with_env w_fd set_orc w_obj n_cache] in H.
    assert (QQ : wq (with_w (with_env s (tl (n_env s))) (set_orc (n_w s) o)) s' -> wq s s').
    { intros [[A B C D E] F I J K]. split; try assumption. split; assumption. }
    destruct (w_fd (n_w s) fd) as [g|] eqn:Eg; [|injection H as <- <-; exact (QQ Q)].
    destruct (fd_w g) eqn:Ew; cbn [negb] in H; [|injection H as <- <-; exact (QQ Q)].
    cbv zeta in H. injection H as <- <-. destruct Q as [[A B C D E] F I J K]. cbn in A, B, C, D, E, F, I, J, K.
    exists g. split; [reflexivity|]. split; [exact Ew|]. auto 12.
  Qed.

  Lemma win_flush_any a fd len0 mode s r s' : 0 <= a -> win_flush t a fd len0 mode s = (r, s') ->
    let len := flush_len t s a len0 in
    memory_kept s s' /\
    match r with
    | Ret _ => 0 < len /\ (forall p, a / P <= p <= (a + len - 1) / P -> exists e, w_vm (n_w s) p = Some e) /\
        match mode with
        | FlushAsync => (forall o, w_obj (n_w s') o = w_obj (n_w s) o) /\ calls s s' [(WFlushView a, true)]
        | FlushSync => exists f, w_fd (n_w s) fd = Some f /\ fd_w f = true /\ calls s s' [(WFlushFile fd, true); (WFlushView a, true)] /\
            (forall p e i, a / P <= p <= (a + len - 1) / P -> w_vm (n_w s) p = Some e -> p_shared e = true -> p_obj e = fd_obj f ->
               p_idx e = i / P -> o_disk (w_obj (n_w s') (fd_obj f)) i = o_data (w_obj (n_w s) (fd_obj f)) i) /\
            (forall i, o_disk (w_obj (n_w s') (fd_obj f)) i = o_data (w_obj (n_w s) (fd_obj f)) i \/
               o_disk (w_obj (n_w s') (fd_obj f)) i = n_cache s (fd_obj f) i) /\
            (forall o, o <> fd_obj f -> w_obj (n_w s') o = w_obj (n_w s) o)
        end
    | Err e => (forall o, w_obj (n_w s') o = w_obj (n_w s) o) /\ exists c, e = last_os_error OpFlush c
    | _ => False
    end.
  Proof.
    intros Ha H. cbv zeta. unfold win_flush in H.
    apply wbind_run in H as [([] & s1 & E1 & H)|[(e & E1 & ->)|[[E1 ->]|[[E1 ->]|[E1 ->]]]]];
      apply win_call_run in E1; [|destruct E1 as (x & E1 & ->)| | |]; apply (flush_view_spec _ _ _ _ _ Ha) in E1 as [L1 E1]; try contradiction.
    2:{ destruct (wq_other _ _ E1) as [(O1 & O2 & O3 & O4 & O5 & O6 & O7 & O8) S1].
        split; [split; [exact S1|]; split; [exact O1|]; split; [exact O7|]; split; [exact O6|]; split; [intros o; rewrite O5; auto|exact O8]|]. split; [exact O5|eauto]. }
    destruct E1 as (Hl & [V1 O1 N1 F1 S1] & C1 & C2 & C3 & M & K). set (len := flush_len t s a len0) in *.
    assert (MK : forall s2, wq s1 s2 -> memory_kept s s2 /\ (forall o, w_obj (n_w s2) o = w_obj (n_w s) o)).
    { intros s2 [[V2 O2 N2 F2 S2] D1 D2 D3 D4]. assert (EO : forall o, w_obj (n_w s2) o = w_obj (n_w s) o) by (intros; congruence).
      split; [|exact EO]. split; [split; intros; congruence|]. do 3 (split; [intros; congruence|]). split; [intros o; rewrite EO; auto|congruence]. }
    destruct mode.
    - apply win_call_run in H. destruct r as [[]|e| | |]; [|destruct H as (x & H & ->)| | |]; apply flush_file_spec in H as [L2 H]; try contradiction.
      + destruct H as (f & G1 & G2 & G3 & G4 & G5 & G6 & G7 & G8 & G9 & G10 & G11). rewrite F1 in G1.
        split. { split; [split; intros; congruence|]. do 3 (split; [intros; congruence|]). split; [|congruence]. intros o. rewrite G11, O1. unfold put.
                 destruct (Z.eqb_spec o (fd_obj f)) as [->|]; auto. }
        split; [exact Hl|]. split; [exact M|]. exists f. split; [exact G1|]. split; [exact G2|].
        split; [unfold calls; rewrite L2, L1; reflexivity|].
        rewrite G11, put_same, O1. cbn [o_disk]. split.
        { intros p e i Hp He Hs Ho Hi. rewrite K. rewrite (proj2 (syncs_iff t _ _ _ _ _)); [reflexivity|].
          exists p, e. rewrite (pages_end a len Ha Hl). split; [lia|]. auto. }
        split; [intros i; rewrite K; destruct (syncs t (n_w s) (a / P) (npages t (a mod P + len)) (fd_obj f) i); auto|].
        intros o N. rewrite put_other by exact N. reflexivity.
      + destruct (MK s' H) as [MK1 MK2]. split; [exact MK1|]. split; [exact MK2|eauto].
    - injection H as <- <-. assert (QR : wq s1 s1) by (split; try reflexivity; apply quiet_refl). destruct (MK s1 QR) as [MK1 MK2].
      split; [exact MK1|]. split; [exact Hl|]. split; [exact M|]. split; [exact MK2|exact L1].
  Qed.

  Lemma win_flush_spec a fd len mode s r s' : 0 <= a -> 0 < len -> win_flush t a fd len mode s = (r, s') ->
    memory_kept s s' /\
    match r with
    | Ret _ => (forall p, a / P <= p <= (a + len - 1) / P -> exists e, w_vm (n_w s) p = Some e) /\
        match mode with
        | FlushAsync => (forall o, w_obj (n_w s') o = w_obj (n_w s) o) /\ calls s s' [(WFlushView a, true)]
        | FlushSync => exists f, w_fd (n_w s) fd = Some f /\ fd_w f = true /\ calls s s' [(WFlushFile fd, true); (WFlushView a, true)] /\
            (forall p e i, a / P <= p <= (a + len - 1) / P -> w_vm (n_w s) p = Some e -> p_shared e = true -> p_obj e = fd_obj f ->
               p_idx e = i / P -> o_disk (w_obj (n_w s') (fd_obj f)) i = o_data (w_obj (n_w s) (fd_obj f)) i) /\
            (forall i, o_disk (w_obj (n_w s') (fd_obj f)) i = o_data (w_obj (n_w s) (fd_obj f)) i \/
               o_disk (w_obj (n_w s') (fd_obj f)) i = n_cache s (fd_obj f) i) /\
            (forall o, o <> fd_obj f -> w_obj (n_w s') o = w_obj (n_w s) o)
        end
    | Err e => (forall o, w_obj (n_w s') o = w_obj (n_w s) o) /\ exists c, e = last_os_error OpFlush c
    | _ => False
    end.
  Proof.
    intros Ha Hl H. pose proof (win_flush_any a fd len mode s r s' Ha H) as K. cbv zeta in K. unfold flush_len in K.
    rewrite (proj2 (Z.eqb_neq len 0)) in K by lia. destruct r; tauto.
  Qed.
End Win.
