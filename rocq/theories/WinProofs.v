(** Proofs about src/os/windows.rs. *)
From Coq Require Import Lia.
From Verif Require Import Base Spec ErrorModel SizeModel OsModel MapModel MapSpec RingMapModel RingMapSpec SizeProofs OsProofs
  MapProofs MirrorProofs RingMapClaims WinModel WinSpec.

(** Equal up to the answers, the other threads, the log and the last error. *)
Record wq (s s' : win) : Prop := {
  wq_w : quiet (n_w s) (n_w s');
  wq_sec : n_sec s' = n_sec s;
  wq_view : n_view s' = n_view s;
  wq_resv : n_resv s' = n_resv s;
  wq_cache : n_cache s' = n_cache s
}.
Lemma wq_same s s' : wq s s' -> same_space s s' /\ same_rest s s'.
Proof.
  intros [[V O N F S'] B C D E]. split; split; intros; try congruence.
Qed.

Definition ok {A} (r : out Z A) : bool := match r with Ret _ => true | _ => false end.

(** Fields set by the bookkeeping of a call. *)
Definition book (s : win) w env log last : win :=
  {| n_w := w; n_sec := n_sec s; n_view := n_view s; n_resv := n_resv s; n_cache := n_cache s;
     n_env := env; n_log := log; n_last := last |}.

Lemma call_inv {A} c (k : Z -> (Z -> bool) -> WT Z A) s r s' :
  (forall a f s r s', k a f s = (r, s') -> n_log s' = n_log s /\ match r with Ret _ | Err _ => True | _ => False end) ->
  call c k s = (r, s') ->
  n_log s' = (c, ok r) :: n_log s /\
  ((exists e, r = Err e /\ wq s s') \/
   (exists a f o s2, w_orc (n_w s) = Grant a :: o /\
      k a f (with_w (with_env s (tl (n_env s))) (set_orc (n_w s) o)) = (r, s2) /\
      wq s2 s')).
Proof.
  intros Hk H. unfold call in H.
  destruct (ask (fun a w => (Ret a, w)) (n_w s)) as [ra w] eqn:EA. apply ask_inv in EA as [(e & -> & Q)|(a & o & Ho & EA)].
  - injection H as <- <-. cbn. split; [reflexivity|]. left. exists e. split; [reflexivity|]. split; try reflexivity. exact Q.
  - injection EA as <- <-.
    destruct (k a (hd (fun _ => false) (n_env s)) (with_w (with_env s (tl (n_env s))) (set_orc (n_w s) o))) as [r0 s2] eqn:EK.
    pose proof (Hk _ _ _ _ _ EK) as [HL HR].
    destruct r0 as [x|e| | |]; try contradiction; injection H as <- <-; cbn; rewrite HL; (split; [reflexivity|]); right;
      exists a, (hd (fun _ => false) (n_env s)), o, s2; (split; [exact Ho|]); (split; [exact EK|]); split; try reflexivity; apply quiet_refl.
Qed.

Lemma win_call_run {A} op (m : WT Z A) s r s' : win_call op m s = (r, s') ->
  match r with
  | Ret a => m s = (Ret a, s')
  | Err e => exists c, m s = (Err c, s') /\ e = last_os_error op (n_last s')
  | Panic => m s = (Panic, s')
  | Fault => m s = (Fault, s')
  | Blocked => m s = (Blocked, s')
  end.
Proof. unfold win_call. destruct (m s) as [[a|e| | |] s1]; intros [= <- <-]; eauto. Qed.

Lemma wbind_run {E A B} (m : WT E A) (k : A -> WT E B) s r s' : wbind m k s = (r, s') ->
  (exists a s1, m s = (Ret a, s1) /\ k a s1 = (r, s')) \/
  (exists e, m s = (Err e, s') /\ r = Err e) \/
  ((m s = (Panic, s') /\ r = Panic) \/ (m s = (Fault, s') /\ r = Fault) \/ (m s = (Blocked, s') /\ r = Blocked)).
Proof.
  unfold wbind. destruct (m s) as [[a|e| | |] s1]; intros H.
  - left. eauto.
  - right. left. injection H as <- <-. eauto.
  - right. right. left. injection H as <- <-. auto.
  - right. right. right. left. injection H as <- <-. auto.
  - right. right. right. right. injection H as <- <-. auto.
Qed.

Lemma same_space_refl s : same_space s s.
Proof. split; reflexivity. Qed.
Lemma same_space_trans s1 s2 s3 : same_space s1 s2 -> same_space s2 s3 -> same_space s1 s3.
Proof. intros [A B C] [A' B' C']. split; intros; congruence. Qed.

(** [same_rest] with the object counter, so that it composes. *)
Definition rest (s s' : win) : Prop := same_rest s s' /\ w_next (n_w s) <= w_next (n_w s').
Lemma rest_refl s : rest s s.
Proof. split; [split; reflexivity|lia]. Qed.
Lemma rest_trans s1 s2 s3 : rest s1 s2 -> rest s2 s3 -> rest s1 s3.
Proof.
  intros [[A B C D E] N] [[A' B' C' D' E'] N']. split; [|lia]. split; intros; try congruence.
  rewrite E', E by lia. reflexivity.
Qed.
Lemma wq_rest s s' : wq s s' -> rest s s'.
Proof. intros Q. split; [exact (proj2 (wq_same _ _ Q))|]. rewrite (q_next _ _ (wq_w _ _ Q)). lia. Qed.
Lemma wq_space s s' : wq s s' -> same_space s s'.
Proof. intros Q. exact (proj1 (wq_same _ _ Q)). Qed.

(** The two DWORDs of a length. *)
Lemma dwords_split x : 0 <= x < 2 ^ 64 -> dwords (hi_dword x) (lo_dword x) = x.
Proof.
  intros H. unfold dwords, hi_dword, lo_dword.
  rewrite Z.shiftr_shiftr by lia. rewrite Z.shiftr_div_pow2 by lia.
  change (2 ^ 32 - 1) with (Z.ones 32). rewrite Z.land_ones by lia.
  change (16 + 16) with 32. rewrite Zmod_mod.
  assert (0 <= x / 2 ^ 32 < 2 ^ 32). { split; [apply Z.div_pos; lia|apply Z.div_lt_upper_bound; [lia|]; change (2 ^ 32 * 2 ^ 32) with (2 ^ 64); lia]. }
  rewrite (Z.mod_small (x / 2 ^ 32)) by lia. pose proof (Z.div_mod x (2 ^ 32) ltac:(lia)). lia.
Qed.

Section Win.
  Variable t : target.
  Hypothesis Ht : good_target t.
  Notation P := (t_page t).
  Notation G := (t_alloc t).
  Let HP : 0 < P.
  Proof. exact (pow2_pos _ (proj1 (proj2 Ht))). Qed.
  Let HG : 0 < G.
  Proof. exact (pow2_pos _ (proj1 (proj2 (proj2 Ht)))). Qed.

  Lemma page_divides_alloc : (P | G).
  Proof. pose proof Ht as (_ & Hp & Ha & Hle & _). exact (pow2_divide _ _ Hp Ha Hle). Qed.
  Lemma aligned_page a : a mod G = 0 -> a mod P = 0.
  Proof.
    intros H. apply Z.mod_divide; [lia|]. apply Z.divide_trans with G; [apply page_divides_alloc|]. apply Z.mod_divide; [lia|exact H].
  Qed.

  (** ** Kernel calls *)
  Lemma no_one_free f s a n : no_one t f s a n = true ->
    n_view s a = None /\ n_resv s a = None /\ forall p, a / P <= p < a / P + n -> w_vm (n_w s) p = None.
  Proof.
    unfold no_one. destruct (n_view s a); [discriminate|]. destruct (n_resv s a); [discriminate|].
    intros H. apply andb_prop in H as [H _]. split; [reflexivity|]. split; [reflexivity|]. exact (proj1 (free_range_iff _ _ _) H).
  Qed.

  Lemma create_anon_spec pr size s r s' : 0 <= size < 2 ^ 64 ->
    create_mapping t None pr (hi_dword size) (lo_dword size) s = (r, s') ->
    n_log s' = (WCreate, ok r) :: n_log s /\
    match r with
    | Ret h => n_sec s h = None /\ 0 < h /\ size <> 0 /\
        (exists c, n_sec s' = put (n_sec s) h (Some c) /\ sc_obj c = w_next (n_w s) /\ sc_size c = P * npages t size /\
           sc_w c = match pr with PageReadWrite => true | _ => false end) /\
        w_obj (n_w s') = put (w_obj (n_w s)) (w_next (n_w s)) {| o_size := P * npages t size; o_data := fun _ => 0; o_disk := fun _ => 0 |} /\
        w_next (n_w s') = w_next (n_w s) + 1 /\ w_vm (n_w s') = w_vm (n_w s) /\ w_fd (n_w s') = w_fd (n_w s) /\ w_fs (n_w s') = w_fs (n_w s) /\
        n_view s' = n_view s /\ n_resv s' = n_resv s /\ n_cache s' = n_cache s /\ P * npages t size < 2 ^ 64
    | Err _ => wq s s'
    | _ => False
    end.
  Proof.
    intros Hs H. unfold create_mapping in H. rewrite (dwords_split size Hs) in H. apply call_inv in H.
    2:{ clear. intros a f s r s' H. destruct (n_sec s a); [injection H as <- <-; auto|]. destruct (a <=? 0); [injection H as <- <-; auto|].
        destruct ((size =? 0) || (2 ^ 64 <=? P * npages t size)); injection H as <- <-; auto. }
    destruct H as [HL H]. split; [exact HL|]. destruct H as [(e & -> & Q)|(h & f & o & s2 & Ho & H & Q)]; [exact Q|].
    cbn [n_sec with_w with_env n_w w_next set_orc w_obj] in H.
    assert (Q0 : wq s (with_w (with_env s (tl (n_env s))) (set_orc (n_w s) o))) by (split; try reflexivity; apply quiet_orc).
    assert (QQ : wq (with_w (with_env s (tl (n_env s))) (set_orc (n_w s) o)) s' -> wq s s').
    { intros [[A B C D E] F I J K]. split; try assumption. split; assumption. }
    destruct (n_sec s h) eqn:Eh; [injection H as <- <-; exact (QQ Q)|].
    destruct (Z.leb_spec h 0); [injection H as <- <-; exact (QQ Q)|].
    destruct (Z.eqb_spec size 0) as [->|N]; [injection H as <- <-; exact (QQ Q)|]. cbn [orb] in H.
    destruct (Z.leb_spec (2 ^ 64) (P * npages t size)); [injection H as <- <-; exact (QQ Q)|].
    injection H as <- <-. destruct Q as [[A B C D E] F I J K]. cbn in A, B, C, D, E, F, I, J, K.
    split; [exact Eh|]. split; [assumption|]. split; [exact N|].
    split. { eexists. split; [exact F|]. auto. }
    auto 10.
  Qed.

  (** What a successful MapViewOfFileEx adds. *)
  Record viewed (s s' : win) (c : section) (acc : view_access) (off len base : Z) : Prop := {
    vw_align : base mod G = 0;
    vw_off : off mod G = 0;
    vw_len : 0 < len;
    vw_fits : off + len <= sc_size c;
    vw_range : range_ok t base len = true;
    vw_based : n_view s base = None /\ n_resv s base = None;
    vw_free : forall p, base / P <= p < base / P + npages t len -> w_vm (n_w s) p = None;
    vw_vm : forall p, w_vm (n_w s') p = if in_pages (base / P) (npages t len) p
        then Some (entry (sc_obj c) (off / P + (p - base / P)) (access_prot acc) (access_shared acc) (sc_w c || negb (access_shared acc)))
        else w_vm (n_w s) p;
    vw_view : n_view s' = put (n_view s) base (Some (npages t len));
    vw_resv : n_resv s' = n_resv s;
    vw_sec : n_sec s' = n_sec s;
    vw_cache : n_cache s' = n_cache s;
    vw_obj : w_obj (n_w s') = w_obj (n_w s);
    vw_next : w_next (n_w s') = w_next (n_w s);
    vw_fd : w_fd (n_w s') = w_fd (n_w s);
    vw_fs : w_fs (n_w s') = w_fs (n_w s)
  }.

  Lemma view_rest s s' c acc off len base : viewed s s' c acc off len base -> rest s s'.
  Proof. intros [_ _ _ _ _ _ _ _ _ _ A B C D E F]. split; [split; intros; congruence|lia]. Qed.

  Lemma map_view_spec h acc off len at_ s r s' : 0 <= off < 2 ^ 64 ->
    map_view t h acc (hi_dword off) (lo_dword off) len at_ s = (r, s') ->
    n_log s' = (WMap at_, ok r) :: n_log s /\
    match r with
    | Ret base => (at_ <> 0 -> base = at_) /\ exists c, n_sec s h = Some c /\ (acc = MapReadWrite -> sc_w c = true) /\
        viewed s s' c acc off (if len =? 0 then sc_size c - off else len) base
    | Err _ => wq s s'
    | _ => False
    end.
  Proof.
    intros Hs H. unfold map_view in H. rewrite (dwords_split off Hs) in H. apply call_inv in H.
    2:{ clear. intros a f s r s' H. cbv zeta in H. destruct (n_sec s h) as [c|]; [|injection H as <- <-; auto].
        destruct (_ || _); [injection H as <- <-; auto|]. destruct (_ || _); [injection H as <- <-; auto|].
        destruct (match acc with MapReadWrite => negb (sc_w c) | _ => false end); [injection H as <- <-; auto|].
        destruct (_ || _); injection H as <- <-; auto. }
    destruct H as [HL H]. split; [exact HL|]. destruct H as [(e & -> & Q)|(a & f & o & s2 & Ho & H & Q)]; [exact Q|].
    cbv zeta in H.
    set (s0 := with_w (with_env s (tl (n_env s))) (set_orc (n_w s) o)) in *.
    assert (QQ : wq s0 s' -> wq s s').
    { intros [[A B C D E] F I J K]. split; try assumption. split; assumption. }
    change (n_sec s0 h) with (n_sec s h) in H.
    set (base := if at_ =? 0 then a else at_) in *.
    destruct (n_sec s h) as [c|] eqn:Eh; [|injection H as <- <-; exact (QQ Q)].
    set (L := if len =? 0 then sc_size c - off else len) in *.
    destruct (Z.eqb_spec (off mod G) 0) as [E1|E1]; cbn [negb orb] in H; [|injection H as <- <-; exact (QQ Q)].
    destruct (Z.eqb_spec (base mod G) 0) as [E2|E2]; cbn [negb orb] in H; [|injection H as <- <-; exact (QQ Q)].
    destruct (Z.leb_spec L 0) as [E3|E3]; cbn [orb] in H; [injection H as <- <-; exact (QQ Q)|].
    destruct (Z.ltb_spec (sc_size c) (off + L)) as [E4|E4]; [injection H as <- <-; exact (QQ Q)|].
    assert (E5 : match acc with MapReadWrite => negb (sc_w c) | _ => false end = false -> acc = MapReadWrite -> sc_w c = true).
    { intros X ->. destruct (sc_w c); [reflexivity|discriminate]. }
    destruct (match acc with MapReadWrite => negb (sc_w c) | _ => false end); [injection H as <- <-; exact (QQ Q)|]. specialize (E5 eq_refl).
    destruct (range_ok t base L) eqn:E6; cbn [negb orb] in H; [|injection H as <- <-; exact (QQ Q)].
    destruct (no_one t f s0 base (npages t L)) eqn:E7; cbn [negb] in H; [|injection H as <- <-; exact (QQ Q)].
    assert (GH : r = Ret base /\ s2 = with_view (with_w s0 (set_vm (n_w s0) (fun p =>
                if in_pages (base / P) (npages t L) p
                then Some (entry (sc_obj c) (off / P + (p - base / P)) (access_prot acc) (access_shared acc)
                             (sc_w c || negb (access_shared acc)))
                else w_vm (n_w s0) p))) (put (n_view s0) base (Some (npages t L)))) by (injection H as <- <-; auto).
    destruct GH as [-> ->]. split; [intros N; unfold base; apply Z.eqb_neq in N; rewrite N; reflexivity|].
    exists c. split; [reflexivity|]. split; [exact E5|].
    destruct Q as [[A B C D E] F I J K]. cbn in A, B, C, D, E, F, I, J, K.
    split; try assumption.
    - apply no_one_free in E7 as (B1 & B2 & _). auto.
    - apply no_one_free in E7 as (_ & _ & B3). exact B3.
    - intros p. rewrite A. reflexivity.
  Qed.

  Lemma unmap_view_spec a s r s' : unmap_view t a s = (r, s') ->
    n_log s' = (WUnmap a, ok r) :: n_log s /\
    match r with
    | Ret _ => exists n, n_view s a = Some n /\ n_view s' = put (n_view s) a None /\
        (forall p, w_vm (n_w s') p = if in_pages (a / P) n p then None else w_vm (n_w s) p) /\
        n_resv s' = n_resv s /\ n_sec s' = n_sec s /\ n_cache s' = n_cache s /\ w_obj (n_w s') = w_obj (n_w s) /\
        w_next (n_w s') = w_next (n_w s) /\ w_fd (n_w s') = w_fd (n_w s) /\ w_fs (n_w s') = w_fs (n_w s)
    | Err _ => wq s s'
    | _ => False
    end.
  Proof.
    intros H. unfold unmap_view in H. apply call_inv in H.
    2:{ clear. intros x f s r s' H. destruct (n_view s a); injection H as <- <-; auto. }
    destruct H as [HL H]. split; [exact HL|]. destruct H as [(e & -> & Q)|(x & f & o & s2 & Ho & H & Q)]; [exact Q|].
    cbn [n_view with_w with_env] in H. destruct (n_view s a) as [n|] eqn:Ea.
    - assert (GH : r = Ret tt /\ s2 = with_view (drop_pages (a / P) n (with_w (with_env s (tl (n_env s))) (set_orc (n_w s) o)))
        (put (n_view s) a None)) by (injection H as <- <-; auto).
      destruct GH as [-> ->]. destruct Q as [[A B C D E] F I J K]. cbn in A, B, C, D, E, F, I, J, K.
      exists n. split; [reflexivity|]. split; [exact I|]. split; [intros p; rewrite A; reflexivity|]. auto 10.
    - injection H as <- <-. destruct Q as [[A B C D E] F I J K]. split; try assumption. split; assumption.
  Qed.

  Lemma unmap_rest a s r s' : unmap_view t a s = (r, s') -> rest s s'.
  Proof.
    intros H. apply unmap_view_spec in H as [_ H]. destruct r as [[]|e| | |]; try contradiction.
    - destruct H as (n & _ & _ & _ & A & B & C & D & E & F & I). split; [split; intros; congruence|lia].
    - exact (wq_rest _ _ H).
  Qed.

  Lemma alloc_spec len s r s' : virtual_alloc t len s = (r, s') ->
    n_log s' = (WReserve, ok r) :: n_log s /\ rest s s' /\ n_sec s' = n_sec s /\
    match r with
    | Ret a => 0 < len /\ range_ok t a len = true /\ a mod G = 0 /\ n_view s' = n_view s /\ n_resv s a = None /\
        n_resv s' = put (n_resv s) a (Some (npages t len)) /\
        (forall p, a / P <= p < a / P + npages t len -> w_vm (n_w s) p = None) /\
        (forall p, ~ a / P <= p < a / P + npages t len -> w_vm (n_w s') p = w_vm (n_w s) p) /\
        (forall p, a / P <= p < a / P + npages t len -> exists e, w_vm (n_w s') p = Some e /\ p_obj e = w_next (n_w s)) /\
        w_next (n_w s') = w_next (n_w s) + 1 /\
        w_obj (n_w s') = put (w_obj (n_w s)) (w_next (n_w s)) {| o_size := 0; o_data := fun _ => 0; o_disk := fun _ => 0 |}
    | Err _ => wq s s'
    | _ => False
    end.
  Proof.
    intros H. unfold virtual_alloc in H. apply call_inv in H.
    2:{ clear. intros x f s r s' H. cbv zeta in H. destruct (len <=? 0); [injection H as <- <-; auto|].
        destruct (_ || _ || _); injection H as <- <-; auto. }
    destruct H as [HL H]. split; [exact HL|]. destruct H as [(e & -> & Q)|(a & f & o & s2 & Ho & H & Q)].
    { split; [exact (wq_rest _ _ Q)|]. split; [apply Q|exact Q]. }
    cbv zeta in H. set (s0 := with_w (with_env s (tl (n_env s))) (set_orc (n_w s) o)) in *.
    assert (QQ : wq s0 s' -> wq s s').
    { intros [[A B C D E] F I J K]. split; try assumption. split; assumption. }
    assert (Qr : s2 = s0 -> forall e, r = Err e -> rest s s' /\ n_sec s' = n_sec s /\ wq s s').
    { intros -> e ->. specialize (QQ Q). split; [exact (wq_rest _ _ QQ)|]. split; [apply QQ|exact QQ]. }
    destruct (Z.leb_spec len 0) as [E1|E1].
    { assert (GH : r = Err ERROR_INVALID_PARAMETER /\ s2 = s0) by (injection H as <- <-; auto). destruct GH as [-> G2]. exact (Qr G2 _ eq_refl). }
    destruct (negb (range_ok t a len) || negb (a mod G =? 0) || negb (no_one t f s0 a (npages t len))) eqn:E2.
    { assert (GH : r = Err ERROR_NOT_ENOUGH_MEMORY /\ s2 = s0) by (injection H as <- <-; auto). destruct GH as [-> G2]. exact (Qr G2 _ eq_refl). }
    apply orb_false_iff in E2 as [E2 E4]. apply orb_false_iff in E2 as [E2 E3].
    apply negb_false_iff in E2, E3, E4. apply Z.eqb_eq in E3.
    assert (GH : r = Ret a /\ s2 = with_resv (with_w s0 (set_vm (set_next (set_obj (n_w s0) (put (w_obj (n_w s0)) (w_next (n_w s0))
                {| o_size := 0; o_data := fun _ => 0; o_disk := fun _ => 0 |})) (w_next (n_w s0) + 1))
                (fun p => if in_pages (a / P) (npages t len) p
                          then Some (entry (w_next (n_w s0)) 0 {| pr_r := false; pr_w := false; pr_x := false |} false false)
                          else w_vm (n_w s0) p)))
              (put (n_resv s0) a (Some (npages t len)))) by (injection H as <- <-; auto).
    destruct GH as [-> ->]. destruct Q as [[A B C D E] F I J K]. cbn in A, B, C, D, E, F, I, J, K.
    split. { split; [split; intros; try congruence; rewrite B, put_other by lia; reflexivity|lia]. }
    split; [exact F|]. split; [exact E1|]. split; [exact E2|]. split; [exact E3|]. split; [exact I|].
    apply no_one_free in E4 as (_ & B2 & B3). split; [exact B2|]. split; [exact J|]. split; [exact B3|].
    split; [intros p Hp; rewrite A, in_pages_no by exact Hp; reflexivity|].
    split; [intros p Hp; rewrite A, in_pages_yes by exact Hp; eexists; split; reflexivity|]. auto.
  Qed.

  Lemma free_spec a s r s' : virtual_free t a s = (r, s') ->
    n_log s' = (WRelease a, ok r) :: n_log s /\ rest s s' /\ n_sec s' = n_sec s /\
    match r with
    | Ret _ => exists n, n_resv s a = Some n /\ n_resv s' = put (n_resv s) a None /\ n_view s' = n_view s /\
        (forall p, w_vm (n_w s') p = if in_pages (a / P) n p then None else w_vm (n_w s) p) /\
        w_next (n_w s') = w_next (n_w s) /\ w_obj (n_w s') = w_obj (n_w s)
    | Err _ => wq s s'
    | _ => False
    end.
  Proof.
    intros H. unfold virtual_free in H. apply call_inv in H.
    2:{ clear. intros x f s r s' H. destruct (n_resv s a); injection H as <- <-; auto. }
    destruct H as [HL H]. split; [exact HL|]. destruct H as [(e & -> & Q)|(x & f & o & s2 & Ho & H & Q)].
    { split; [exact (wq_rest _ _ Q)|]. split; [apply Q|exact Q]. }
    cbn [n_resv with_w with_env] in H. destruct (n_resv s a) as [n|] eqn:Ea.
    - assert (GH : r = Ret tt /\ s2 = with_resv (drop_pages (a / P) n (with_w (with_env s (tl (n_env s))) (set_orc (n_w s) o)))
        (put (n_resv s) a None)) by (injection H as <- <-; auto).
      destruct GH as [-> ->]. destruct Q as [[A B C D E] F I J K]. cbn in A, B, C, D, E, F, I, J, K.
      split. { split; [split; intros; congruence|lia]. }
      split; [exact F|]. exists n. split; [reflexivity|]. split; [exact J|]. split; [exact I|]. split; [intros p; rewrite A; reflexivity|]. auto.
    - injection H as <- <-. assert (Q' : wq s s').
      { destruct Q as [[A B C D E] F I J K]. split; try assumption. split; assumption. }
      split; [exact (wq_rest _ _ Q')|]. split; [apply Q'|exact Q'].
  Qed.

  Lemma no_result_run {A} (m : WT Z A) s r s' : no_result m s = (r, s') -> exists r1, m s = (r1, s') /\
    match r1 with Ret _ | Err _ => r = Ret tt | Panic => r = Panic | Fault => r = Fault | Blocked => r = Blocked end.
  Proof. unfold no_result. destruct (m s) as [[a|e| | |] s1]; intros [= <- <-]; eexists; (split; [reflexivity|reflexivity]). Qed.

  (** ** reserve *)
  Lemma reserve_spec len s r s' : reserve t len s = (r, s') ->
    exists l, calls s s' l /\ attempts l = 1%nat /\ rest s s' /\ n_sec s' = n_sec s /\
    match r with
    | Ret pg => 0 < len /\ range_ok t pg len = true /\ pg mod G = 0 /\
        (failed_release l \/ same_space s s')
    | Err e => (exists c, e = last_os_error RingAllocate c) /\ same_space s s'
    | _ => False
    end.
  Proof.
    intros H. unfold reserve in H. apply wbind_run in H as [(pg & s1 & E1 & H)|[(e & E1 & ->)|[[E1 ->]|[[E1 ->]|[E1 ->]]]]];
      apply win_call_run in E1; [|destruct E1 as (c & E1 & ->)| | |]; apply alloc_spec in E1 as (L1 & R1 & S1 & E1); try contradiction.
    2:{ exists [(WReserve, false)]. split; [exact L1|]. split; [reflexivity|]. split; [exact R1|]. split; [exact S1|].
        split; [eauto|exact (wq_space _ _ E1)]. }
    destruct E1 as (A1 & A2 & A3 & A4 & A0 & A5 & A6 & A7 & _).
    apply wbind_run in H as [(u & s2 & E2 & H)|[(e & E2 & ->)|[[E2 ->]|[[E2 ->]|[E2 ->]]]]];
      apply no_result_run in E2 as (r2 & E2 & Er); apply free_spec in E2 as (L2 & R2 & S2 & E2);
      destruct r2 as [[]|e2| | |]; try contradiction; try discriminate Er.
    - injection H as <- <-. exists [(WRelease pg, true); (WReserve, true)].
      split; [unfold calls; rewrite L2, L1; reflexivity|]. split; [reflexivity|]. split; [exact (rest_trans _ _ _ R1 R2)|]. split; [congruence|].
      split; [exact A1|]. split; [exact A2|]. split; [exact A3|]. right.
      destruct E2 as (n & B1 & B2 & B3 & B4 & _). rewrite A5, put_same in B1. injection B1 as <-.
      split.
      + intros p. rewrite B4. destruct (in_pages_cases (pg / P) (npages t len) p) as [[-> I]|[-> I]]; [symmetry; apply A6, I|apply A7, I].
      + intros a. congruence.
      + intros a. rewrite B2, A5. destruct (Z.eq_dec a pg) as [->|N]; [rewrite put_same; congruence|rewrite !put_other by exact N; reflexivity].
    - injection H as <- <-. exists [(WRelease pg, false); (WReserve, true)].
      split; [unfold calls; rewrite L2, L1; reflexivity|]. split; [reflexivity|]. split; [exact (rest_trans _ _ _ R1 R2)|]. split; [congruence|].
      split; [exact A1|]. split; [exact A2|]. split; [exact A3|]. left. exists pg. left. left. reflexivity.
  Qed.

  (** ** The two views *)
  Record ring_added (s s' : win) (c : section) (pg n : Z) : Prop := {
    ra_n : 0 < n;
    ra_align : pg mod G = 0;
    ra_unit : (G | P * n);
    ra_low : P <= pg;
    ra_high : pg + 2 * (P * n) <= 2 ^ t_bits t - P;
    ra_fits : P * n <= sc_size c;
    ra_free : forall p, pg / P <= p < pg / P + 2 * n -> w_vm (n_w s) p = None;
    ra_vm : forall p, w_vm (n_w s') p = two_views (pg / P) n (sc_obj c) (w_vm (n_w s)) p;
    ra_view : forall a, n_view s' a = if (a =? pg) || (a =? pg + P * n) then Some n else n_view s a;
    ra_new : n_view s pg = None /\ n_view s (pg + P * n) = None;
    ra_resv : n_resv s' = n_resv s;
    ra_obj : w_obj (n_w s') = w_obj (n_w s);
    ra_next : w_next (n_w s') = w_next (n_w s)
  }.

  Lemma map_ring_handle_spec h len pg s r s' c : n_sec s h = Some c -> len <> 0 -> P <= pg ->
    map_ring_handle t h len pg s = (r, s') ->
    exists l, calls s s' l /\ attempts l = 0%nat /\ rest s s' /\
    match r with
    | Ret a => a = pg /\ exists n, len = P * n /\ ring_added s s' c pg n
    | Err e => (exists op x, (op = RingPrimary \/ op = RingSecondary) /\ e = last_os_error op x) /\
        (failed_release l \/ same_space s s')
    | _ => False
    end.
  Proof.
    intros Hc Hl Hpg H. unfold map_ring_handle in H.
    assert (Z64 : 0 <= 0 < 2 ^ 64) by lia.
    apply wbind_run in H as [(a & s1 & E1 & H)|[(e & E1 & ->)|[[E1 ->]|[[E1 ->]|[E1 ->]]]]];
      apply win_call_run in E1; [|destruct E1 as (x & E1 & ->)| | |];
      apply (map_view_spec _ _ _ _ _ _ _ _ Z64) in E1 as [L1 E1]; try contradiction.
    2:{ exists [(WMap pg, false)]. split; [exact L1|]. split; [reflexivity|]. split; [exact (wq_rest _ _ E1)|].
        split; [exists RingPrimary; eauto|]. right. exact (wq_space _ _ E1). }
    destruct E1 as (Ea & c1 & Ec & W1 & V1). rewrite Hc in Ec. injection Ec as <-. specialize (Ea ltac:(lia)). subst a.
    rewrite (proj2 (Z.eqb_neq len 0) Hl) in V1. specialize (W1 eq_refl).
    pose proof V1 as [V1a V1b V1l V1f V1r V1o V1e V1v V1w V1x V1s V1c V1ob V1n V1fd V1fs].
    pose proof V1r as R1. apply range_ok_iff in R1 as (R1a & R1b & R1c). pose proof (npages_bounds t HP len) as NB.
    assert (PA : ptr_add t pg len = pg + len).
    { unfold ptr_add, as_usize. apply Z.mod_small. lia. }
    rewrite PA in H. clear PA.
    destruct (handle_view t h RingSecondary MapReadWrite 0 len (pg + len) s1) as [r2 s2] eqn:E2.
    apply win_call_run in E2.
    destruct r2 as [b|e| | |]; [|destruct E2 as (x & E2 & ->)| | |];
      apply (map_view_spec _ _ _ _ _ _ _ _ Z64) in E2 as [L2 E2]; try contradiction.
    - injection H as <- <-. exists [(WMap (pg + len), true); (WMap pg, true)].
      split; [unfold calls; rewrite L2, L1; reflexivity|]. split; [reflexivity|].
      destruct E2 as (Eb & c2 & Ec & _ & V2). rewrite V1s, Hc in Ec. injection Ec as <-. specialize (Eb ltac:(lia)). subst b.
      rewrite (proj2 (Z.eqb_neq len 0) Hl) in V2.
      split; [exact (rest_trans _ _ _ (view_rest _ _ _ _ _ _ _ V1) (view_rest _ _ _ _ _ _ _ V2))|].
      split; [reflexivity|].
      pose proof V2 as [V2a V2b V2l V2f V2r V2o V2e V2v V2w V2x V2s V2c V2ob V2n V2fd V2fs].
      pose proof V2r as R2. apply range_ok_iff in R2 as (R2a & R2b & R2c).
      assert (Dl : (G | len)).
      { replace len with (pg + len - pg) by lia. apply Z.divide_sub_r; apply Z.mod_divide; try lia; assumption. }
      destruct (Z.divide_trans _ _ _ page_divides_alloc Dl) as (n & En). rewrite Z.mul_comm in En. exists n. split; [exact En|].
      subst len. rewrite (npages_mul t HP) in *.
      assert (Eh : (pg + P * n) / P = pg / P + n) by (rewrite (Z.mul_comm P n), Z.div_add by lia; reflexivity).
      rewrite Eh in *.
      assert (n0 : 0 < n) by nia.
      split; try assumption.
      + lia.
      + intros p Hp. destruct (Z.lt_ge_cases p (pg / P + n)) as [I|I]; [apply V1e; lia|].
        specialize (V2e p ltac:(lia)). rewrite V1v, in_pages_no in V2e by lia. exact V2e.
      + intros p. rewrite V2v, V1v. unfold two_views. rewrite W1. cbn [access_prot access_shared negb orb].
        rewrite Zdiv_0_l. destruct (in_pages_cases (pg / P + n) n p) as [[-> I]|[-> I]].
        * rewrite in_pages_no by lia. reflexivity.
        * reflexivity.
      + intros a. rewrite V2w, V1w. unfold put. destruct (Z.eqb_spec a (pg + P * n)); destruct (Z.eqb_spec a pg); reflexivity.
      + split; [apply V1o|]. destruct V2o as [V2o _]. rewrite V1w, put_other in V2o by lia. exact V2o.
      + congruence.
      + congruence.
      + congruence.
    - apply wbind_run in H as [(u & s3 & E3 & H)|[(e & E3 & ->)|[[E3 ->]|[[E3 ->]|[E3 ->]]]]];
        apply no_result_run in E3 as (r3 & E3 & Er); pose proof (unmap_rest _ _ _ _ E3) as R3;
        apply unmap_view_spec in E3 as [L3 E3]; destruct r3 as [[]|e3| | |]; try contradiction; try discriminate Er.
      + injection H as <- <-. exists [(WUnmap pg, true); (WMap (pg + len), false); (WMap pg, true)].
        split; [unfold calls; rewrite L3, L2, L1; reflexivity|]. split; [reflexivity|].
        split; [exact (rest_trans _ _ _ (view_rest _ _ _ _ _ _ _ V1) (rest_trans _ _ _ (wq_rest _ _ E2) R3))|].
        split; [exists RingSecondary; eauto|]. right.
        destruct E2 as [[Q1 Q2 Q3 Q4 Q5] Q6 Q7 Q8 Q9]. destruct E3 as (n & B1 & B2 & B3 & B4 & _).
        rewrite Q7, V1w, put_same in B1. injection B1 as <-. split.
        * intros p. rewrite B3, Q1, V1v. destruct (in_pages_cases (pg / P) (npages t len) p) as [[-> I]|[-> I]]; [symmetry; apply V1e, I|reflexivity].
        * intros a. rewrite B2, Q7, V1w. destruct (Z.eq_dec a pg) as [->|N]; [rewrite put_same; symmetry; apply V1o|].
          rewrite !put_other by exact N. reflexivity.
        * intros a. congruence.
      + injection H as <- <-. exists [(WUnmap pg, false); (WMap (pg + len), false); (WMap pg, true)].
        split; [unfold calls; rewrite L3, L2, L1; reflexivity|]. split; [reflexivity|].
        split; [exact (rest_trans _ _ _ (view_rest _ _ _ _ _ _ _ V1) (rest_trans _ _ _ (wq_rest _ _ E2) R3))|].
        split; [exists RingSecondary; eauto|]. left. exists pg. right. left. reflexivity.
  Qed.

  (** ** The loop *)
  Lemma attempts_app l l' : attempts (l ++ l') = (attempts l + attempts l')%nat.
  Proof. unfold attempts. rewrite filter_app, app_length. reflexivity. Qed.
  Lemma failed_app l l' : failed_release l \/ failed_release l' -> failed_release (l ++ l').
  Proof.
    intros [(a & [H|H])|(a & [H|H])]; exists a; [left|right|left|right]; apply in_or_app; auto.
  Qed.

  Lemma ring_loop_spec more h len full c : forall s r s', n_sec s h = Some c -> len <> 0 ->
    ring_loop t more h len full s = (r, s') ->
    exists l s1, calls s s' l /\ (1 <= attempts l <= S more)%nat /\ rest s s1 /\ rest s1 s' /\ (failed_release l \/ same_space s s1) /\
    match r with
    | Ret pg => exists n, len = P * n /\ ring_added s1 s' c pg n
    | Err e => (exists op x, ring_stage op /\ e = last_os_error op x /\ (op = RingAllocate \/ attempts l = S more)) /\ s1 = s'
    | _ => False
    end.
  Proof.
    induction more as [|more IH]; intros s r s' Hc Hl H; cbn [ring_loop] in H.
    all: apply wbind_run in H as [(pg & s1 & E1 & H)|[(e & E1 & ->)|[[E1 ->]|[[E1 ->]|[E1 ->]]]]];
      apply reserve_spec in E1 as (l1 & L1 & A1 & R1 & S1 & E1); try contradiction.
    2,4: exists l1, s'; (split; [exact L1|]); (split; [lia|]); (split; [exact R1|]); (split; [apply rest_refl|]);
      destruct E1 as [(x & ->) E1]; (split; [right; exact E1|]); (split; [exists RingAllocate, x; unfold ring_stage; auto|reflexivity]).
    all: destruct E1 as (Hf & Rg & Al & F1); apply range_ok_iff in Rg as (Rg1 & _);
      destruct (map_ring_handle t h len pg s1) as [r2 s2] eqn:E2;
      rewrite <- S1 in Hc;
      destruct (map_ring_handle_spec h len pg s1 r2 s2 c Hc Hl Rg1 E2) as (l2 & L2 & A2 & R2 & E2').
    all: assert (L12 : calls s s2 (l2 ++ l1)) by (unfold calls in *; rewrite L2, L1, app_assoc; reflexivity).
    all: assert (A12 : attempts (l2 ++ l1) = 1%nat) by (rewrite attempts_app, A1, A2; reflexivity).
    all: assert (F1' : failed_release (l2 ++ l1) \/ same_space s s1) by (destruct F1 as [F1|F1]; [left; apply failed_app; auto|right; exact F1]).
    all: destruct r2 as [a|e2| | |]; try contradiction.
    - injection H as <- <-. destruct E2' as (-> & n & En & Ra). exists (l2 ++ l1), s1. rewrite A12. split; [exact L12|]. split; [lia|]. eauto 10.
    - injection H as <- <-. destruct E2' as [(op & x & Op & ->) F2]. exists (l2 ++ l1), s2. rewrite A12. split; [exact L12|]. split; [lia|].
      split; [exact (rest_trans _ _ _ R1 R2)|]. split; [apply rest_refl|]. split.
      + destruct F1' as [F1'|F1']; [auto|]. destruct F2 as [F2|F2]; [left; apply failed_app; auto|right; exact (same_space_trans _ _ _ F1' F2)].
      + split; [|reflexivity]. exists op, x. unfold ring_stage. destruct Op as [->| ->]; auto 10.
    - injection H as <- <-. destruct E2' as (-> & n & En & Ra). exists (l2 ++ l1), s1. rewrite A12. split; [exact L12|]. split; [lia|]. eauto 10.
    - destruct E2' as [_ F2].
      assert (Hc2 : n_sec s2 h = Some c). { destruct R2 as [[R2 _ _ _ _] _]. rewrite R2. exact Hc. }
      destruct (IH s2 r s' Hc2 Hl H) as (l3 & s3 & L3 & A3 & R3 & R3' & F3 & E3).
      exists (l3 ++ l2 ++ l1), s3. rewrite attempts_app, A12.
      split; [unfold calls in *; rewrite L3, L12, app_assoc; reflexivity|]. split; [lia|].
      split; [exact (rest_trans _ _ _ R1 (rest_trans _ _ _ R2 R3))|]. split; [exact R3'|]. split.
      + destruct F1' as [F1'|F1']; [left; apply failed_app; auto|].
        destruct F2 as [F2|F2]; [left; apply failed_app; right; apply failed_app; auto|].
        destruct F3 as [F3|F3]; [left; apply failed_app; auto|right].
        exact (same_space_trans _ _ _ F1' (same_space_trans _ _ _ F2 F3)).
      + destruct r as [pg'|e| | |]; try contradiction; [exact E3|].
        destruct E3 as [(op & x & O1 & O2 & O3) E3]. split; [|exact E3]. exists op, x. split; [exact O1|]. split; [exact O2|].
        destruct O3 as [O3|O3]; [auto|right; lia].
  Qed.

  (** ** map_ring *)
  Record win_ring (s s' : win) (pg n : Z) (l : list (wcall * bool)) : Prop := {
    wr_n : 0 < n;
    wr_align : pg mod G = 0;
    wr_unit : (G | P * n);
    wr_low : P <= pg;
    wr_high : pg + 2 * (P * n) <= 2 ^ t_bits t - P;
    wr_pages : forall k, 0 <= k < 2 * n -> w_vm (n_w s') (pg / P + k) = Some (entry (w_next (n_w s)) (k mod n) PRW true true);
    wr_view : n_view s' pg = Some n /\ n_view s' (pg + P * n) = Some n;
    wr_size : P * n <= o_size (w_obj (n_w s') (w_next (n_w s)));
    wr_zero : forall i, o_data (w_obj (n_w s') (w_next (n_w s))) i = 0;
    wr_rest : failed_release l \/
      ((forall p, pg / P <= p < pg / P + 2 * n -> w_vm (n_w s) p = None) /\
       (forall p, ~ pg / P <= p < pg / P + 2 * n -> w_vm (n_w s') p = w_vm (n_w s) p) /\
       (forall a, a <> pg -> a <> pg + P * n -> n_view s' a = n_view s a) /\
       (n_view s pg = None /\ n_view s (pg + P * n) = None) /\
       forall a, n_resv s' a = n_resv s a);
    wr_next : w_next (n_w s) < w_next (n_w s')
  }.

  Lemma word_64 : 2 ^ t_bits t <= 2 ^ 64.
  Proof. destruct Ht as [[E|E] _]; rewrite E; reflexivity || lia. Qed.

  Lemma win_map_ring_spec len s r s' : is_usize t len -> win_map_ring t len s = (r, s') ->
    (exists l, calls s s' l /\ (attempts l <= 6)%nat /\ same_rest s s' /\
       match r with
       | Ret pg => (exists n, len = P * n /\ win_ring s s' pg n l) /\ exists h, closed_last l h
       | Err e => (failed_release l \/ same_space s s') /\
           exists op x, ring_stage op /\ e = last_os_error op x /\ (op = RingAllocate \/ attempts l = 6%nat) /\
             (l = [(WCreate, false)] \/ exists h, closed_last l h)
       | Panic => t_checks t = true /\ 2 ^ t_bits t <= 2 * len /\ s' = s
       | _ => False
       end).
  Proof.
    intros Hl H. unfold win_map_ring in H. pose proof (bits_half t Ht) as [HB HB0]. pose proof word_64 as H64.
    apply wbind_run in H as [(full & s0 & E0 & H)|[(e & E0 & ->)|[[E0 ->]|[[E0 ->]|[E0 ->]]]]]; unfold wout in E0.
    2,4,5: unfold umul, wrap in E0; destruct ((0 <=? 2 * len) && (2 * len <? 2 ^ t_bits t)); [|destruct (t_checks t)]; discriminate E0.
    2:{ unfold umul, wrap in E0. destruct ((0 <=? 2 * len) && (2 * len <? 2 ^ t_bits t)) eqn:E; [discriminate|].
        destruct (t_checks t) eqn:Ec; [|discriminate]. assert (s' = s) by (injection E0; auto). subst s'. exists [].
        split; [reflexivity|]. split; [cbn; lia|]. split; [split; reflexivity|]. split; [reflexivity|]. split; [|reflexivity].
        unfold is_usize in Hl. apply andb_false_iff in E as [E|E]; [apply Z.leb_gt in E; lia|apply Z.ltb_ge in E; exact E]. }
    assert (Es : s0 = s /\ umul (E:=error) t 2 len = Ret full) by (injection E0; auto). destruct Es as [-> Ef]. clear E0.
    assert (Hfull : 0 <= full < 2 ^ t_bits t /\ (full <> 0 -> len <> 0) /\ (full = 2 * len \/ full = 2 * len - 2 ^ t_bits t)).
    { unfold umul, wrap, is_usize in *. destruct ((0 <=? 2 * len) && (2 * len <? 2 ^ t_bits t)) eqn:E.
      - assert (Ef' : 2 * len = full) by (injection Ef; auto). apply andb_prop in E as [E1 E2]. apply Z.leb_le in E1. apply Z.ltb_lt in E2. lia.
      - destruct (t_checks t); [discriminate|]. assert (Ef' : (2 * len) mod 2 ^ t_bits t = full) by (injection Ef; auto).
        apply andb_false_iff in E as [E|E]; [apply Z.leb_gt in E; lia|]. apply Z.ltb_ge in E.
        assert (X : (2 * len) mod 2 ^ t_bits t = 2 * len - 2 ^ t_bits t).
        { replace (2 * len) with (2 * len - 2 ^ t_bits t + 1 * 2 ^ t_bits t) at 1 by lia. rewrite Z.mod_add by lia. apply Z.mod_small. lia. }
        lia. }
    destruct Hfull as (Hf1 & Hf2 & Hf3). assert (Hf4 : 0 <= full < 2 ^ 64) by lia.
    apply wbind_run in H as [(h & s1 & E1 & H)|[(e & E1 & ->)|[[E1 ->]|[[E1 ->]|[E1 ->]]]]];
      apply win_call_run in E1; [|destruct E1 as (x & E1 & ->)| | |];
      apply (create_anon_spec _ _ _ _ _ Hf4) in E1 as [L1 E1]; try contradiction.
    2:{ exists [(WCreate, false)]. split; [exact L1|]. split; [cbn; lia|]. destruct (wq_same _ _ E1) as [Q1 Q2]. split; [exact Q2|].
        split; [right; exact Q1|]. exists RingAllocate. eexists. unfold ring_stage. auto 10. }
    destruct E1 as (C1 & C2 & C3 & (c & C4 & C5 & C6 & C7) & C8 & C9 & C10 & C11 & C12 & C13 & C14 & C15 & C16).
    unfold scoped in H. destruct (ring_loop t 5 h len full s1) as [r2 s2] eqn:E2.
    assert (Hc : n_sec s1 h = Some c) by (rewrite C4; apply put_same).
    destruct (ring_loop_spec 5 h len full c s1 r2 s2 Hc (Hf2 C3) E2) as (l & s3 & L & A & R1 & R2 & F & M).
    assert (GH : r = r2 /\ s' = with_log (with_sec s2 (put (n_sec s2) h None)) ((WClose h, true) :: n_log s2)) by (injection H as <- <-; auto).
    destruct GH as [-> ->]. exists ((WClose h, true) :: l ++ [(WCreate, true)]).
    split. { unfold calls in *. cbn. rewrite L, L1. rewrite <- app_assoc. reflexivity. }
    assert (EA : attempts ((WClose h, true) :: l ++ [(WCreate, true)]) = attempts l).
    { change ((WClose h, true) :: l ++ [(WCreate, true)]) with ([(WClose h, true)] ++ l ++ [(WCreate, true)]).
      rewrite !attempts_app. cbn. lia. }
    assert (EF : failed_release l -> failed_release ((WClose h, true) :: l ++ [(WCreate, true)])).
    { intros X. change ((WClose h, true) :: l ++ [(WCreate, true)]) with ([(WClose h, true)] ++ l ++ [(WCreate, true)]).
      apply failed_app. right. apply failed_app. left. exact X. }
    rewrite EA. split; [lia|].
    destruct (rest_trans _ _ _ R1 R2) as [[Ra Rb Rc Rd Re] Rn].
    split. { split; cbn; intros.
      - destruct (Z.eq_dec h0 h) as [->|N]; [rewrite put_same; congruence|]. rewrite put_other, Ra, C4, put_other by exact N. reflexivity.
      - rewrite Rb. congruence.
      - rewrite Rc. congruence.
      - rewrite Rd. congruence.
      - rewrite Re, C8, put_other by lia. reflexivity. }
    assert (SS : same_space s s1) by (split; intros; congruence).
    destruct r2 as [pg|e| | |]; try contradiction.
    - split; [|exists h; eexists; reflexivity]. destruct M as (n & En & [D1 D2 D3 D4 D5 D6 D7 D8 D9 D9' D10 D11 D12]). exists n. split; [exact En|].
      assert (EO : w_obj (n_w s2) (w_next (n_w s)) = {| o_size := P * npages t full; o_data := fun _ => 0; o_disk := fun _ => 0 |}).
      { rewrite Re, C8, put_same by lia. reflexivity. }
      split; cbn -[Z.mul Z.add]; try assumption.
      + intros k Hk. rewrite D8. unfold two_views. rewrite C5. destruct (Z.lt_ge_cases k n).
        * rewrite in_pages_yes by lia. rewrite Z.mod_small by lia. f_equal. f_equal. lia.
        * rewrite in_pages_no by lia. rewrite in_pages_yes by lia. f_equal. f_equal.
          rewrite <- (Z.mod_add k (-1) n), Z.mod_small by lia. lia.
      + rewrite !D9, Z.eqb_refl. cbn [orb]. rewrite Z.eqb_refl, orb_true_r. auto.
      + rewrite EO. cbn. lia.
      + intros i. rewrite EO. reflexivity.
      + destruct F as [F|F]; [left; exact (EF F)|right]. destruct (same_space_trans _ _ _ SS F) as [F1 F2 F3].
        split; [intros p Hp; rewrite <- F1; apply D7, Hp|]. split.
        * intros p Hp. rewrite D8. unfold two_views. rewrite !in_pages_no by lia. apply F1.
        * split; [|split; [rewrite <- !F2; exact D9'|intros a; rewrite D10; apply F3]]. intros a N1 N2. rewrite D9.
          rewrite (proj2 (Z.eqb_neq a pg) N1), (proj2 (Z.eqb_neq _ _) N2). apply F2.
      + lia.
    - destruct M as [(op & x & M1 & M2 & M3) ->]. split.
      + destruct F as [F|F]; [left; exact (EF F)|right]. destruct (same_space_trans _ _ _ SS F) as [F1 F2 F3]. split; assumption.
      + exists op, x. split; [exact M1|]. split; [exact M2|]. split; [exact M3|]. right. exists h. eexists. reflexivity.
  Qed.

  Lemma win_ringed s s' pg n l : known_objects s -> win_ring s s' pg n l -> ~ failed_release l ->
    ringed t (n_w s') pg n (w_next (n_w s)) (fun _ => 0).
  Proof.
    intros K [A1 A2 A3 A4 A5 A6 A7 A8 A9 A10 _] NF. destruct A10 as [A10|(B1 & B2 & _)]; [contradiction|]. split.
    - exact A1.
    - exact (aligned_page pg A2).
    - intros k Hk. eexists. split; [exact (A6 k Hk)|]. cbn. auto 10.
    - intros p e He Ho. destruct (Z.le_gt_cases (pg / P) p) as [X|X]; [destruct (Z.lt_ge_cases p (pg / P + 2 * n)) as [Y|Y]; [lia|]|];
        rewrite B2 in He by lia; apply K in He; lia.
    - exact A8.
    - intros i _. apply A9.
  Qed.
End Win.
