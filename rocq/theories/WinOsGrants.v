(** When the functions of the module [os] on Windows succeed. *)
From Coq Require Import Lia.
From Verif Require Import Base ErrorModel OsModel OsProofs MapModel MapSpec MapProofs SizeProofs MapOps RingMapModel RingMapSpec WinModel WinSpec WinProofs WinCalls
  OsLayerModel OsLayerSpec OsLayerProofs WinOsModel WinOsSpec WinOsProofs.

Section Grants.
  Variable t : target.
  Hypothesis Ht : good_target t.
  Notation P := (t_page t).
  Notation G := (t_alloc t).
  Let HP : 0 < P.
  Proof. exact (pow2_pos _ (proj1 (proj2 Ht))). Qed.

  Definition after_grant (s : win) (o : list answer) : win := with_w (with_env s (tl (n_env s))) (set_orc (n_w s) o).
  Lemma call_grant {A} c (k : Z -> (Z -> bool) -> WT Z A) s a o : w_orc (n_w s) = Grant a :: o ->
    call c k s = let '(r, s1) := k a (hd (fun _ => false) (n_env s)) (after_grant s o) in
                 match r with
                 | Ret x => (Ret x, with_log s1 ((c, true) :: n_log s1))
                 | Err e => (Err e, with_last (with_log s1 ((c, false) :: n_log s1)) e)
                 | x => (x, s1)
                 end.
  Proof. intros H. unfold call, ask. rewrite H. reflexivity. Qed.
  Lemma call_ret {A} c (k : Z -> (Z -> bool) -> WT Z A) s a o : w_orc (n_w s) = Grant a :: o ->
    (exists x s', call c k s = (Ret x, s')) <-> exists x s', k a (hd (fun _ => false) (n_env s)) (after_grant s o) = (Ret x, s').
  Proof.
    intros H. rewrite (call_grant _ _ _ _ _ H). destruct (k _ _ _) as [r s1]. split; intros (x & s' & E).
    - destruct r; try discriminate E. eauto.
    - injection E as -> _. eauto.
  Qed.
  Lemma win_call_ret {A} op (m : WT Z A) s : (exists x s', win_call op m s = (Ret x, s')) <-> exists x s', m s = (Ret x, s').
  Proof.
    unfold win_call. destruct (m s) as [r s1]. split; intros (x & s' & E).
    - destruct r; try discriminate E. eauto.
    - injection E as -> _. eauto.
  Qed.

  (** ** Calls on mapped pages *)
  Lemma pages_overlap pg len q : 0 <= pg -> 0 < len ->
    pg / P <= q < pg / P + npages t (pg mod P + len) <-> overlaps t pg len q = true.
  Proof.
    intros A L. unfold overlaps. rewrite andb_true_iff, !Z.ltb_lt.
    pose proof (Z.div_mod pg P ltac:(lia)). pose proof (Z.mod_pos_bound pg P HP).
    pose proof (npages_bounds t HP (pg mod P + len)). nia.
  Qed.
  Lemma on_pages_ret c pg len k s a o : 0 <= pg -> w_orc (n_w s) = Grant a :: o ->
    (exists x s', on_pages t c pg len k s = (Ret x, s')) <->
    wmapped t s pg len /\ exists x s', k (pg / P) (npages t (pg mod P + len)) (after_grant s o) = (Ret x, s').
  Proof.
    intros A Ho. unfold on_pages. rewrite (call_ret _ _ _ _ _ Ho). unfold wmapped. cbv zeta.
    destruct (Z.leb_spec len 0) as [L|L].
    { split; [intros (x & s' & E); discriminate E|intros [[X _] _]; lia]. }
    destruct (mapped_range (n_w (after_grant s o)) (pg / P) (npages t (pg mod P + len))) eqn:M.
    - split; [|intros [_ X]; exact X]. intros X. split; [|exact X]. split; [exact L|]. intros q Q.
      apply (proj1 (mapped_range_iff _ _ _) M q), pages_overlap; assumption.
    - split; [intros (x & s' & E); discriminate E|]. intros [[_ V] _].
      assert (X : mapped_range (n_w (after_grant s o)) (pg / P) (npages t (pg mod P + len)) = true); [|rewrite X in M; discriminate M].
      apply mapped_range_iff. intros q Q. apply (V q), pages_overlap; assumption.
  Qed.
  Lemma change_ret g f n s : exists x s', change g f n s = (Ret x, s').
  Proof. unfold change. eauto. Qed.

  Lemma wlock_iff pg len s a o : 0 <= pg -> w_orc (n_w s) = Grant a :: o ->
    (exists x s', win_lock t pg len s = (Ret x, s')) <-> wmapped t s pg len.
  Proof.
    intros A Ho. unfold win_lock, virtual_lock. rewrite win_call_ret, (on_pages_ret _ _ _ _ _ _ _ A Ho).
    split; [intros [X _]; exact X|]. intros X. split; [exact X|]. apply change_ret.
  Qed.
  Lemma checked_ret (ok : pte -> bool) g code pg len s a o c : 0 <= pg -> w_orc (n_w s) = Grant a :: o ->
    (exists x s', on_pages t c pg len (fun first n s0 =>
       if forallb (fun q => match w_vm (n_w s0) q with Some e => ok e | None => false end) (page_seq first n)
       then change g first n s0 else (Err code, s0)) s = (Ret x, s')) <->
    0 < len /\ forall q, overlaps t pg len q = true -> exists e, w_vm (n_w s) q = Some e /\ ok e = true.
  Proof.
    intros A Ho. rewrite (on_pages_ret _ _ _ _ _ _ _ A Ho). unfold wmapped. split.
    - intros ([L V] & x & s' & E). split; [exact L|]. intros q Q.
      destruct (forallb _ _) eqn:F; [|discriminate E]. rewrite forallb_forall in F.
      specialize (F q (proj2 (page_seq_In _ _ _) (proj2 (pages_overlap pg len q A L) Q))). cbn [n_w after_grant with_w set_orc w_vm] in F.
      destruct (V q Q) as (e & Ee). rewrite Ee in F. eauto.
    - intros [L V]. split; [split; [exact L|]; intros q Q; destruct (V q Q) as (e & Ee & _); eauto|].
      replace (forallb _ _) with true; [apply change_ret|]. symmetry. apply forallb_forall. intros q Q.
      apply page_seq_In, (pages_overlap pg len q A L) in Q. destruct (V q Q) as (e & Ee & Ok).
      cbn [n_w after_grant with_w set_orc w_vm]. rewrite Ee. exact Ok.
  Qed.
  Lemma wunlock_iff pg len s a o : 0 <= pg -> w_orc (n_w s) = Grant a :: o ->
    (exists x s', win_unlock t pg len s = (Ret x, s')) <->
    0 < len /\ forall q, overlaps t pg len q = true -> exists e, w_vm (n_w s) q = Some e /\ p_lock e = true.
  Proof. intros A Ho. unfold win_unlock, virtual_unlock. rewrite win_call_ret. exact (checked_ret p_lock _ _ _ _ _ _ _ _ A Ho). Qed.
  Lemma wprotect_iff pg len p s a o : 0 <= pg -> w_orc (n_w s) = Grant a :: o ->
    (exists x s', win_protect t pg len p s = (Ret x, s')) <->
    0 < len /\ forall q, overlaps t pg len q = true -> exists e, w_vm (n_w s) q = Some e /\ (prot_writes p = true -> p_maxw e = true).
  Proof.
    intros A Ho. unfold win_protect, virtual_protect. rewrite win_call_ret.
    rewrite (checked_ret (fun e => negb (pr_w (page_prot_bits match p with ReadOnly => PageReadOnly | ReadWrite => PageReadWrite | ReadCopy => PageReadWrite | ReadExec => PageExecRead end)) || p_maxw e) _ _ _ _ _ _ _ _ A Ho).
    assert (K : forall e, negb (pr_w (page_prot_bits match p with ReadOnly => PageReadOnly | ReadWrite => PageReadWrite | ReadCopy => PageReadWrite | ReadExec => PageExecRead end)) || p_maxw e = true <-> (prot_writes p = true -> p_maxw e = true)).
    { intros e. destruct p; cbn; split; auto; intros; discriminate. }
    split; intros [L V]; (split; [exact L|]); intros q Q; destruct (V q Q) as (e & E & X); exists e; (split; [exact E|]); apply K, X.
  Qed.
  Lemma wunmap_iff pg len s a o : w_orc (n_w s) = Grant a :: o ->
    (exists e s', win_unmap t pg len s = (Err e, s')) <-> n_view s pg <> None.
  Proof.
    intros Ho. unfold win_unmap, unmap_view. rewrite (call_grant _ _ _ _ _ Ho). cbn [after_grant with_w with_env n_view].
    destruct (n_view s pg) as [n|]; cbv beta iota zeta; split.
    - intros _. discriminate.
    - intros _. eauto.
    - intros (e & s' & E). discriminate E.
    - intros X. now elim X.
  Qed.
  Lemma wflush_async_iff pg fd len s a o : 0 <= pg -> len <> 0 -> w_orc (n_w s) = Grant a :: o ->
    (exists x s', win_flush t pg fd len FlushAsync s = (Ret x, s')) <-> wmapped t s pg len.
  Proof.
    intros A L Ho.
    assert (E : (exists x s', win_flush t pg fd len FlushAsync s = (Ret x, s')) <-> exists x s', win_call OpFlush (flush_view t pg len) s = (Ret x, s')).
    { unfold win_flush, wbind. destruct (win_call OpFlush (flush_view t pg len) s) as [r s1]. split; intros (x & s' & E).
      - destruct r; try discriminate E. eauto.
      - injection E as -> _. unfold wret. eauto. }
    rewrite E, win_call_ret. unfold flush_view, flush_len. rewrite (proj2 (Z.eqb_neq len 0) L), (on_pages_ret _ _ _ _ _ _ _ A Ho).
    split; [intros [X _]; exact X|]. intros X. split; [exact X|]. eauto.
  Qed.
  Lemma wflush_sync_iff pg fd len s a b o : 0 <= pg -> len <> 0 -> w_orc (n_w s) = Grant a :: Grant b :: o ->
    (exists x s', win_flush t pg fd len FlushSync s = (Ret x, s')) <->
    wmapped t s pg len /\ exists f, w_fd (n_w s) fd = Some f /\ fd_w f = true.
  Proof.
    intros A L Ho. unfold win_flush, wbind.
    destruct (win_call OpFlush (flush_view t pg len) s) as [r s1] eqn:E.
    pose proof (wflush_async_iff pg fd len s a (Grant b :: o) A L Ho) as I.
    unfold win_flush, wbind, wret in I. rewrite E in I.
    destruct r as [[]|e| | |].
    2-5: split; [intros (x & s' & X); discriminate X|]; intros [X _]; destruct (proj2 I X) as (y & s2 & Y); discriminate Y.
    assert (W : w_orc (n_w s1) = Grant b :: o /\ w_fd (n_w s1) = w_fd (n_w s)).
    { apply win_call_run in E. unfold flush_view, on_pages in E. rewrite (call_grant _ _ _ _ _ Ho) in E. cbv zeta in E.
      destruct (flush_len t s pg len <=? 0); [discriminate E|]. destruct (mapped_range _ _ _); [|discriminate E].
      cbv beta iota zeta in E. injection E as <-. split; reflexivity. }
    destruct W as [W1 W2]. rewrite win_call_ret. unfold flush_file. rewrite (call_ret _ _ _ _ _ W1).
    cbn [after_grant with_w with_env n_w set_orc w_fd]. rewrite W2.
    split.
    - intros (x & s' & X). split; [apply I; eauto|]. destruct (w_fd (n_w s) fd) as [f|]; [|discriminate X].
      exists f. split; [reflexivity|]. destruct (fd_w f); [reflexivity|discriminate X].
    - intros (_ & f & F & Fw). rewrite F, Fw. cbn [negb]. eauto.
  Qed.

  (** ** New views *)
  Lemma no_one_iff f s a n : no_one t f s a n = true <->
    n_view s a = None /\ n_resv s a = None /\ forall q, a / P <= q < a / P + n -> w_vm (n_w s) q = None /\ f q = false.
  Proof.
    unfold no_one. destruct (n_view s a); [split; [discriminate|intros (X & _); discriminate X]|].
    destruct (n_resv s a); [split; [discriminate|intros (_ & X & _); discriminate X]|].
    rewrite andb_true_iff, free_range_iff, forallb_forall. split.
    - intros [F N]. split; [reflexivity|]. split; [reflexivity|]. intros q Q. split; [exact (F q Q)|].
      specialize (N q (proj2 (page_seq_In _ _ _) Q)). destruct (f q); [discriminate N|reflexivity].
    - intros (_ & _ & N). split; [intros q Q; apply (N q Q)|]. intros q Q. apply page_seq_In in Q. destruct (N q Q) as [_ ->]. reflexivity.
  Qed.
  Lemma wplace_iff s f a len : 0 < len -> wplace t s f a len <->
    (a mod G = 0 /\ range_ok t a len = true) /\ no_one t f s a (npages t len) = true.
  Proof.
    intros L. unfold wplace. rewrite (range_ok_iff t), no_one_iff. split.
    - intros (_ & R & A & N1 & N2 & V). pose proof (aligned_page t Ht _ A) as AP. split; [split; [exact A|]|].
      + split; [exact R|]. split; [exact AP|]. destruct (V _ (last_page t HP a len L AP)) as (_ & _ & B).
        pose proof (Z.div_mod a P ltac:(lia)). lia.
      + split; [exact N1|]. split; [exact N2|]. intros q Q. apply (overlaps_iff t HP _ _ _ AP) in Q. destruct (V q Q) as (V1 & V2 & _). auto.
    - intros ((A & R & AP & B) & N1 & N2 & V). do 5 (split; [assumption|]). intros q Q.
      apply (overlaps_iff t HP _ _ _ AP) in Q. destruct (V q Q) as [V1 V2]. split; [exact V1|]. split; [exact V2|].
      pose proof (Z.div_mod a P ltac:(lia)). nia.
  Qed.
  (** the view of a section just made *)
  Lemma view_ret h acc off len s a o c : w_orc (n_w s) = Grant a :: o -> n_sec s h = Some c -> 0 <= off < 2 ^ 64 -> 0 < len ->
    (acc = MapReadWrite -> sc_w c = true) ->
    (exists x s', map_view t h acc (hi_dword off) (lo_dword off) len 0 s = (Ret x, s')) <->
    off mod G = 0 /\ off + len <= sc_size c /\ wplace t s (hd (fun _ => false) (n_env s)) a len.
  Proof.
    intros Ho Hc O L W. unfold map_view. rewrite (call_ret _ _ _ _ _ Ho), (wplace_iff _ _ _ _ L). cbv zeta.
    cbn [after_grant with_w with_env n_sec]. rewrite Hc, (dwords_split _ O), (proj2 (Z.eqb_neq len 0)), (proj2 (Z.leb_gt len 0)) by lia.
    change (0 =? 0) with true. cbv beta iota. cbn [orb].
    replace (match acc with MapReadWrite => negb (sc_w c) | _ => false end) with false
      by (destruct acc; try reflexivity; rewrite W; reflexivity).
    assert (NO : no_one t (hd (fun _ => false) (n_env s)) (after_grant s o) a (npages t len) = no_one t (hd (fun _ => false) (n_env s)) s a (npages t len)) by reflexivity.
    rewrite NO.
    destruct (Z.eqb_spec (off mod G) 0) as [E1|E1]; cbn [negb orb].
    2:{ split; [intros (x & s' & E); discriminate E|intros (X & _); contradiction]. }
    destruct (Z.eqb_spec (a mod G) 0) as [E2|E2]; cbn [negb].
    2:{ split; [intros (x & s' & E); discriminate E|intros (_ & _ & (X & _) & _); contradiction]. }
    destruct (Z.ltb_spec (sc_size c) (off + len)) as [E3|E3].
    { split; [intros (x & s' & E); discriminate E|intros (_ & X & _); lia]. }
    destruct (range_ok t a len); cbn [negb orb].
    2:{ split; [intros (x & s' & E); discriminate E|intros (_ & _ & (_ & X) & _); discriminate X]. }
    destruct (no_one t _ s a (npages t len)); cbn [negb].
    2:{ split; [intros (x & s' & E); discriminate E|intros (_ & _ & _ & X); discriminate X]. }
    split; [auto|eauto].
  Qed.
  Lemma scoped_ret {A} h (m : WT error A) s : (exists x s', scoped h m s = (Ret x, s')) <-> exists x s', m s = (Ret x, s').
  Proof.
    unfold scoped. destruct (m s) as [r s1]. split; intros (x & s' & E).
    - injection E as -> _. eauto.
    - injection E as -> _. eauto.
  Qed.
  Lemma wbind_not {E A B} (m : WT E A) (k : A -> WT E B) s : ~ (exists x s', m s = (Ret x, s')) -> ~ exists x s', wbind m k s = (Ret x, s').
  Proof. intros N (x & s' & H). unfold wbind in H. destruct (m s) as [r s1] eqn:M. destruct r; try discriminate H. apply N. eauto. Qed.

  Lemma wmap_file_iff fd off len p s h a o : is_usize t off -> 0 < len -> w_orc (n_w s) = Grant h :: Grant a :: o ->
    (exists x s', win_map_file t fd off len p s = (Ret x, s')) <->
    0 < h /\ n_sec s h = None /\ off mod G = 0 /\ wplace t s (others_then s) a len /\
    exists f, w_fd (n_w s) fd = Some f /\ (p = ReadWrite -> fd_w f = true) /\ off + len <= o_size (w_obj (n_w s) (fd_obj f)).
  Proof.
    intros U L Ho. pose proof (word_64 t Ht) as H64. unfold is_usize in U. assert (U' : 0 <= off < 2 ^ 64) by lia.
    unfold win_map_file. rewrite (surjective_pairing (protect_pair p)). cbv beta iota zeta.
    assert (D0 : dwords (hi_dword 0) (lo_dword 0) = 0) by reflexivity.
    unfold wbind, handle_new, win_call at 1, create_mapping. rewrite (call_grant _ _ _ _ _ Ho), D0. cbv zeta.
    cbn [after_grant with_w with_env n_sec n_w set_orc w_fd w_obj].
    destruct (n_sec s h) as [c|] eqn:Hh; cbv beta iota.
    { split; [intros (x & s' & E); discriminate E|intros (_ & X & _); discriminate X]. }
    destruct (Z.leb_spec h 0) as [H0|H0].
    { split; [intros (x & s' & E); discriminate E|intros (X & _); lia]. }
    destruct (w_fd (n_w s) fd) as [f|] eqn:F.
    2:{ split; [intros (x & s' & E); discriminate E|intros (_ & _ & _ & _ & f & X & _); discriminate X]. }
    change (0 =? 0) with true. cbv beta iota.
    destruct (Z.eqb_spec (o_size (w_obj (n_w s) (fd_obj f))) 0) as [Z0|Z0].
    { split; [intros (x & s' & E); discriminate E|intros (_ & _ & _ & _ & f' & X & _ & Y)]. injection X as <-. lia. }
    assert (B : match fst (protect_pair p) with PageReadWrite => negb (fd_w f) | _ => false end = false <-> (p = ReadWrite -> fd_w f = true)).
    { destruct p, (fd_w f); cbn; split; intros X; auto; try (intros Y; discriminate); discriminate (X eq_refl). }
    destruct (match fst (protect_pair p) with PageReadWrite => negb (fd_w f) | _ => false end) eqn:Bd.
    { split; [intros (x & s' & E); discriminate E|intros (_ & _ & _ & _ & f' & X & Y & _)]. injection X as <-. discriminate (proj2 B Y). }
    rewrite Z.ltb_irrefl. cbv beta iota.
    rewrite scoped_ret. unfold handle_view. rewrite win_call_ret.
    match goal with |- (exists x s', map_view t h _ _ _ _ _ ?S1 = _) <-> _ => set (s1 := S1) end.
    rewrite (view_ret h (snd (protect_pair p)) off len s1 a o
               {| sc_obj := fd_obj f; sc_size := o_size (w_obj (n_w s) (fd_obj f)); sc_w := match fst (protect_pair p) with PageReadWrite => true | _ => false end |}); try assumption.
    - cbn [sc_size]. change (wplace t s1 (hd (fun _ => false) (n_env s1)) a len) with (wplace t s (others_then s) a len). split.
      + intros (X1 & X2 & X3). split; [lia|]. split; [reflexivity|]. split; [exact X1|]. split; [exact X3|].
        exists f. split; [reflexivity|]. split; [apply B; reflexivity|exact X2].
      + intros (_ & _ & X1 & X3 & f' & X & _ & X2). injection X as <-. auto.
    - reflexivity.
    - unfold s1. cbn. unfold put. rewrite Z.eqb_refl. reflexivity.
    - destruct p; cbn; auto; discriminate.
  Qed.
  Lemma wmap_anon_iff len p s h a o : is_usize t len -> w_orc (n_w s) = Grant h :: Grant a :: o ->
    (exists x s', win_map_anon t len p s = (Ret x, s')) <->
    0 < h /\ n_sec s h = None /\ wplace t s (others_then s) a len.
  Proof.
    intros U Ho. pose proof (word_64 t Ht) as H64. unfold is_usize in U. assert (U' : 0 <= len < 2 ^ 64) by lia.
    unfold win_map_anon. rewrite (surjective_pairing (protect_pair p)). cbv beta iota zeta.
    unfold wbind, handle_new, win_call at 1, create_mapping. rewrite (call_grant _ _ _ _ _ Ho), (dwords_split _ U'). cbv zeta.
    cbn [after_grant with_w with_env n_sec n_w set_orc w_fd w_obj w_next].
    destruct (n_sec s h) as [c|] eqn:Hh; cbv beta iota.
    { split; [intros (x & s' & E); discriminate E|intros (_ & X & _); discriminate X]. }
    destruct (Z.leb_spec h 0) as [H0|H0].
    { split; [intros (x & s' & E); discriminate E|intros (X & _); lia]. }
    destruct (Z.eqb_spec len 0) as [Z0|Z0]; cbn [orb].
    { split; [intros (x & s' & E); discriminate E|intros (_ & _ & X & _); lia]. }
    destruct (Z.leb_spec (2 ^ 64) (P * npages t len)) as [B|B].
    { split; [intros (x & s' & E); discriminate E|]. intros (_ & _ & X). assert (L : 0 < len) by lia.
      apply (wplace_iff _ _ _ _ L) in X as ((_ & X) & _). apply (range_ok_iff t) in X as (X1 & _ & X2). lia. }
    cbv beta iota.
    rewrite scoped_ret. unfold handle_view. rewrite win_call_ret.
    match goal with |- (exists x s', map_view t h _ _ _ _ _ ?S1 = _) <-> _ => set (s1 := S1) end.
    rewrite (view_ret h (snd (protect_pair p)) 0 len s1 a o
               {| sc_obj := w_next (n_w s); sc_size := P * npages t len; sc_w := match fst (protect_pair p) with PageReadWrite => true | _ => false end |}); try lia.
    - cbn [sc_size]. change (wplace t s1 (hd (fun _ => false) (n_env s1)) a len) with (wplace t s (others_then s) a len). split.
      + intros (X1 & X2 & X3). split; [lia|]. split; [reflexivity|exact X3].
      + intros (_ & _ & X). split; [apply Zmod_0_l|]. split; [|exact X]. pose proof (npages_bounds t HP len). lia.
    - reflexivity.
    - unfold s1. cbn. unfold put. rewrite Z.eqb_refl. reflexivity.
    - destruct p; cbn; auto; discriminate.
  Qed.
End Grants.
