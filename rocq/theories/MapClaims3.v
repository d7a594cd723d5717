(** The mapping properties, continued: durability, hints, pinning, files. *)
From Coq Require Import Lia.
From Verif Require Import Base ErrorModel SizeModel SizeProofs OsModel MapModel MapSpec OsProofs MapProofs MapCreate MapOps ApiModel ApiSpec OthersProofs ApiProofs MapClaims MapClaims2.

Section Claims.
  Variable t : target.
  Hypothesis Ht : posix_target t.
  Notation P := (t_page t).

  (** ** C18 *)
  Lemma step_disk c a r a' o i : api_ok t a -> call_ok t c -> step t c a = (r, a') ->
    o_disk (w_obj (a_w a') o) i = o_disk (w_obj (a_w a) o) i \/ o_disk (w_obj (a_w a') o) i = o_data (w_obj (a_w a') o) i.
  Proof.
    intros OK C H. destruct (step_kinds t Ht _ _ _ _ OK C H) as [E|l S E|k l l' S L W|k l S L A N [Q|(SF & _)]|oe S V].
    - destruct (ex_disk _ _ E o i) as [[X _]|X]; auto.
    - destruct (ex_disk _ _ E o i) as [[X _]|X]; auto.
    - apply (wi_disk _ _ _ _ W).
    - rewrite (q_obj _ _ Q). auto.
    - rewrite (sf_obj _ _ SF). auto.
    - apply (iv_disk _ _ V).
  Qed.

  Lemma history_disk h o i : forall a, api_ok t a -> Forall (call_ok t) h ->
    o_disk (w_obj (a_w (run t h a)) o) i = o_disk (w_obj (a_w a) o) i \/
    exists a', In a' (states t h a) /\ o_disk (w_obj (a_w (run t h a)) o) i = o_data (w_obj (a_w a') o) i.
  Proof.
    induction h as [|c h IH]; intros a OK F; cbn [run states]; [auto|].
    inversion F as [|c' h' Fc Fh]. subst c' h'. destruct (step t c a) as [r a1] eqn:E.
    pose proof (step_ok t Ht c a OK Fc) as OK1. rewrite E in OK1. cbn [snd] in *.
    destruct (IH a1 OK1 Fh) as [X|(a' & I & X)]; [|right; exists a'; split; [right; exact I|exact X]].
    destruct (step_disk _ _ _ _ o i OK Fc E) as [Y|Y].
    - left. congruence.
    - right. exists a1. split; [|congruence]. right. destruct h; cbn; auto.
  Qed.

  Lemma sync_disk a k l c off len a1 r : api_ok t a -> a_live a k = Some l -> l_mut l = true -> l_shared l = true -> call_ok t c ->
    sync_call (m_len (l_map l)) c = Some (k, off, len) -> step t c a = (Ret r, a1) ->
    a_live a1 = a_live a /\
    (forall i, 0 <= i -> off <= i < off + len -> o_disk (w_obj (a_w a1) (l_obj l)) (l_off l + i) = o_data (w_obj (a_w a1) (l_obj l)) (l_off l + i)) /\
    (forall o, o_data (w_obj (a_w a1) o) = o_data (w_obj (a_w a) o)).
  Proof.
    intros OK Hl Hm Hs Ck S H. pose proof (ok_live _ _ OK k l Hl) as B. pose proof (P_pos t Ht) as HP.
    assert (X : exists first n, sys_msync t (P * first) (P * n) true (a_w a) = (Ret tt, a_w a1) /\ a_live a1 = a_live a /\ off + len <= m_len (l_map l) /\
       forall i, off <= i < off + len -> first <= (m_ptr (l_map l) + i) / P < first + n).
    { assert (Y : forall (f : ST error unit) z w', unit_call a (f (a_w a)) = (Ret z, w') -> f (a_w a) = (Ret tt, a_w w') /\ a_live w' = a_live a).
      { intros f z w'. unfold unit_call. destruct (f (a_w a)) as [[[]|e| | |] w2]; intros Y; try discriminate Y. injection Y as _ <-. auto. }
      destruct c as [| | | | | | | |k' [|]|k' off' len' [|]| | | | | | | | |]; try discriminate S; injection S as -> <- <-.
      - cbn [step] in H. unfold with_map in H. rewrite Hl, Hm in H. apply Y in H as [H La]. exists (first_page t (l_map l)), (page_count t (l_map l)).
        unfold flush in H. rewrite (whole_eq t Ht _ _ _ _ _ _ _ (a_w a) B) in H. apply os_call_inv in H. split; [exact H|]. split; [exact La|].
        split; [lia|]. intros i Hi. destruct (byte_page t Ht _ _ _ _ _ _ B i ltac:(lia)) as (_ & Ow & _). exact Ow.
      - cbn [step] in H. unfold with_map in H. rewrite Hl, Hm in H. apply Y in H as [H La]. destruct Ck as (U1 & U2 & Fit). unfold flush_range in H.
        pose proof (ranged_cases t Ht _ _ _ _ _ _ OpFlush off' len' (fun p n => os_flush t p n FlushSync) (a_w a) B U1 U2 Fit) as R.
        destruct (Z.leb_spec (off' + len') (m_len (l_map l))) as [Le|Gt].
        + destruct R as (x & n & E & Ex & R1 & R2 & _). rewrite E in H. apply os_call_inv in H. exists x, n. split; [exact H|]. split; [exact La|]. split; [lia|].
          intros i Hi. pose proof (page_div t Ht (m_ptr (l_map l) + i)) as [D1 D2]. nia.
        + destruct (off' + len' <? 2 ^ t_bits t); rewrite R in H; discriminate H. }
    destruct X as (first & n & M & La & Le & Pg). apply (msync_pages t Ht) in M as (_ & _ & _ & _ & Ob). split; [exact La|]. split.
    - intros i Hi0 Hi. destruct (Ob (l_obj l)) as (_ & D & K). rewrite K, D. cbn [andb].
      destruct (byte_entry t Ht _ _ _ _ _ _ B i ltac:(lia)) as (e & Ev & Eo & Ei & El & Es & _).
      rewrite (proj2 (syncs_iff t (a_w a) first n (l_obj l) (l_off l + i))); [reflexivity|].
      exists ((m_ptr (l_map l) + i) / P), e. rewrite Es. split; [exact (Pg i Hi)|]. repeat split; try assumption.
      pose proof (page_div t Ht (m_ptr (l_map l) + i)) as [D1 D2]. apply (Z.div_unique _ _ _ ((m_ptr (l_map l) + i) mod P)); lia.
    - intros o. apply (Ob o).
  Qed.

  Lemma durable_lemma a k l c off len a1 r h i : api_ok t a -> a_live a k = Some l -> l_mut l = true -> l_shared l = true -> call_ok t c ->
    sync_call (m_len (l_map l)) c = Some (k, off, len) -> step t c a = (Ret r, a1) -> 0 <= i -> off <= i < off + len ->
    Forall (call_ok t) h ->
    exists a', In a' (states t h a1) /\
      o_disk (w_obj (a_w (run t h a1)) (l_obj l)) (l_off l + i) = o_data (w_obj (a_w a') (l_obj l)) (l_off l + i).
  Proof.
    intros OK Hl Hm Hs Ck S H H0 Hi F. destruct (sync_disk _ _ _ _ _ _ _ _ OK Hl Hm Hs Ck S H) as (_ & D & _).
    pose proof (step_ok t Ht c a OK Ck) as OK1. rewrite H in OK1. cbn [snd] in OK1.
    destruct (history_disk h (l_obj l) (l_off l + i) a1 OK1 F) as [X|X]; [|exact X].
    exists a1. split; [destruct h; cbn; auto|]. rewrite X. apply D; assumption.
  Qed.

  (** ** Calls that change entries of one map in place *)
  Definition entry_call (f : pte -> pte) (op : operation) (a : api) (l : live) (off len : Z) (r : out error seen) (a' : api) : Prop :=
    a_live a' = a_live a /\ a_cnt a' = a_cnt a /\
    match r with
    | Ret _ => same_files (a_w a) (a_w a') /\ off + len <= m_len (l_map l) /\ exists first n,
        (forall p, w_vm (a_w a') p = if in_pages first n p then option_map f (w_vm (a_w a) p) else w_vm (a_w a) p) /\
        (forall p, first <= p < first + n -> own_page t (l_map l) p) /\
        P * first <= m_ptr (l_map l) + off /\ m_ptr (l_map l) + off + len <= P * (first + n) /\
        (0 < len -> forall p, first <= p < first + n -> meets t p (m_ptr (l_map l) + off) len) /\
        (len = 0 -> 0 < m_len (l_map l) -> n <= 1)
    | Err e => e_op e = op /\ quiet (a_w a) (a_w a')
    | Panic => quiet (a_w a) (a_w a')
    | _ => False
    end.

  Lemma whole_entry f ok op a k l r a' : api_ok t a -> a_live a k = Some l ->
    unit_call a (whole t (l_map l) (fun p n => os_call op (on_range t p n ok f)) (a_w a)) = (r, a') ->
    entry_call f op a l 0 (m_len (l_map l)) r a'.
  Proof.
    intros OK Hl H. pose proof (ok_live _ _ OK k l Hl) as B. destruct (whole t (l_map l) _ (a_w a)) as [r1 w1] eqn:E.
    injection H as <- <-. split; [reflexivity|]. split; [reflexivity|].
    rewrite (whole_eq t Ht _ _ _ _ _ _ _ (a_w a) B) in E. apply os_call_inv in E. cbn [a_w set_w].
    pose proof (bk_len _ _ _ _ _ _ _ B) as Bl. pose proof (map_end t Ht (l_map l)) as ME. pose proof (ptr_split t Ht (l_map l)) as [S1 S2].
    destruct r1 as [[]|e| | |].
    - apply (on_pages_spec t Ht) in E as (_ & V & SF). split; [exact SF|]. split; [lia|].
      exists (first_page t (l_map l)), (page_count t (l_map l)). split; [exact V|]. split; [unfold own_page; auto|].
      split; [lia|]. split; [lia|]. split; [|lia]. intros Lp p Hp. unfold meets.
      pose proof (npages_bounds t (P_pos t Ht) (m_ptr (l_map l) mod P + m_len (l_map l))) as NB. fold (page_count t (l_map l)) in NB. split; nia.
    - destruct E as (x & E & ->). split; [reflexivity|]. exact (on_pages_spec t Ht _ _ _ _ _ _ _ E).
    - exfalso. exact (on_pages_spec t Ht _ _ _ _ _ _ _ E).
    - exact (on_pages_spec t Ht _ _ _ _ _ _ _ E).
    - exact (on_pages_spec t Ht _ _ _ _ _ _ _ E).
  Qed.
  Lemma ranged_entry f ok op a k l off len r a' : api_ok t a -> a_live a k = Some l -> is_usize t off -> is_usize t len ->
    (off + len < 2 ^ t_bits t \/ t_checks t = true) ->
    unit_call a (ranged t op (l_map l) off len (fun p n => os_call op (on_range t p n ok f)) (a_w a)) = (r, a') ->
    entry_call f op a l off len r a'.
  Proof.
    intros OK Hl U1 U2 Fit H. pose proof (ok_live _ _ OK k l Hl) as B.
    destruct (ranged t op (l_map l) off len _ (a_w a)) as [r1 w1] eqn:E.
    injection H as <- <-. split; [reflexivity|]. split; [reflexivity|]. cbn [a_w set_w].
    pose proof (ranged_cases t Ht _ _ _ _ _ _ op off len (fun p n => os_call op (on_range t p n ok f)) (a_w a) B U1 U2 Fit) as R.
    destruct (Z.leb_spec (off + len) (m_len (l_map l))) as [Le|Gt].
    - destruct R as (x & n & E1 & Ex & R1 & R2 & R3 & R4 & R5 & R6 & R7). rewrite E1 in E. apply os_call_inv in E.
      destruct r1 as [[]|e| | |].
      + apply (on_pages_spec t Ht) in E as (_ & V & SF). split; [exact SF|]. split; [lia|]. exists x, n.
        split; [exact V|]. split; [unfold own_page; lia|]. split; [lia|]. split; [lia|]. split.
        * intros Lp p Hp. specialize (R6 Lp). unfold meets. pose proof (page_div t Ht (m_ptr (l_map l) + off)) as [D1 D2]. rewrite <- Ex in D1. split; nia.
        * intros Lz _. exact (proj1 (R7 Lz)).
      + destruct E as (y & E & ->). split; [reflexivity|]. exact (on_pages_spec t Ht _ _ _ _ _ _ _ E).
      + exfalso. exact (on_pages_spec t Ht _ _ _ _ _ _ _ E).
      + exact (on_pages_spec t Ht _ _ _ _ _ _ _ E).
      + exact (on_pages_spec t Ht _ _ _ _ _ _ _ E).
    - destruct (off + len <? 2 ^ t_bits t); rewrite R in E; injection E as <- <-.
      + split; [reflexivity|apply quiet_refl].
      + apply quiet_refl.
  Qed.

  (** ** C20 *)
  Lemma lock_lemma a k l c off len op b r a' : api_ok t a -> a_live a k = Some l -> call_ok t c ->
    lock_call (m_len (l_map l)) c = Some (k, off, len, op, b) -> step t c a = (r, a') ->
    entry_call (set_lock b) op a l off len r a'.
  Proof.
    intros OK Hl Ck S H.
    destruct c as [| | | | | | | | | | | |k'|k' off' len'|k'|k' off' len'| | |]; try discriminate S; injection S as -> <- <- <- <-;
      cbn [step] in H; unfold with_map in H; rewrite Hl in H.
    - eapply whole_entry; eauto.
    - destruct Ck as (U1 & U2 & Fit). eapply ranged_entry; eauto.
    - eapply whole_entry; eauto.
    - destruct Ck as (U1 & U2 & Fit). eapply ranged_entry; eauto.
  Qed.

  (** ** C19 *)
  Lemma advise_lemma a k l c adv r a' : api_ok t a -> a_live a k = Some l -> call_ok t c ->
    advise_call c = Some (k, adv) -> step t c a = (r, a') ->
    exists off len, entry_call (fun e => if match adv with AdvWillNotNeed => true | _ => false end then set_copy None e else e) OpAdvise a l off len r a'.
  Proof.
    intros OK Hl Ck S H.
    destruct c as [| | | | | | | | | |k' adv'|k' off' len' adv'| | | | | | |]; try discriminate S; injection S as -> ->;
      cbn [step] in H; unfold with_map in H; rewrite Hl in H.
    - exists 0, (m_len (l_map l)). unfold advise in H. unfold os_advise, sys_madvise in H. destruct adv; eapply whole_entry; eauto.
    - destruct Ck as (U1 & U2 & Fit). exists off', len'. unfold advise_range in H. unfold os_advise, sys_madvise in H. destruct adv; eapply ranged_entry; eauto.
  Qed.

  Lemma option_map_id {A} (x : option A) : option_map (fun e => e) x = x.
  Proof. destruct x; reflexivity. Qed.

  (** Reads after an in-place change that keeps the copies. *)
  Lemma entry_reads f op a k l off len r a' : api_ok t a -> a_live a k = Some l -> entry_call f op a l off len r a' ->
    (forall p e, own_page t (l_map l) p -> w_vm (a_w a) p = Some e -> same_entry e (f e)) ->
    forall k' i, read_at t a' k' i = read_at t a k' i.
  Proof.
    intros OK Hl (La & _ & M) K k' i.
    assert (X : (forall p, same_page (w_vm (a_w a) p) (w_vm (a_w a') p)) /\ w_obj (a_w a') = w_obj (a_w a)).
    { destruct r as [s|e| | |]; try contradiction M.
      - destruct M as (SF & _ & first & n & V & Ow & _). split; [|exact (sf_obj _ _ SF)]. intros p. rewrite V.
        destruct (in_pages_cases first n p) as [[-> Ip]|[-> Ip]]; [|apply same_page_refl].
        destruct (w_vm (a_w a) p) as [e|] eqn:Ev; cbn; [|exact I]. exact (K p e (Ow p Ip) Ev).
      - destruct M as [_ Q]. rewrite (q_vm _ _ Q). split; [intros; apply same_page_refl|exact (q_obj _ _ Q)].
      - rewrite (q_vm _ _ M). split; [intros; apply same_page_refl|exact (q_obj _ _ M)]. }
    destruct X as [SP Ob]. destruct (a_live a k') as [l'|] eqn:Hl'.
    - apply (read_same t a a' k' l' l' i); auto; [rewrite La; exact Hl'|rewrite Ob; auto].
    - unfold read_at. cbn [step]. unfold with_map. rewrite La, Hl'. reflexivity.
  Qed.

  Lemma advise_hint a k l c adv r a' : api_ok t a -> a_live a k = Some l -> call_ok t c ->
    advise_call c = Some (k, adv) -> step t c a = (r, a') ->
    a_live a' = a_live a /\ w_obj (a_w a') = w_obj (a_w a) /\ w_fd (a_w a') = w_fd (a_w a) /\ w_fs (a_w a') = w_fs (a_w a) /\
    (forall p, match w_vm (a_w a) p, w_vm (a_w a') p with Some e, Some e' => unmoved e e' | None, None => True | _, _ => False end) /\
    (forall k' i, k' <> k -> read_at t a' k' i = read_at t a k' i) /\
    (adv <> AdvWillNotNeed \/ l_shared l = true -> forall k' i, read_at t a' k' i = read_at t a k' i).
  Proof.
    intros OK Hl Ck S H. destruct (advise_lemma _ _ _ _ _ _ _ OK Hl Ck S H) as (off & len & EC).
    pose proof (ok_live _ _ OK k l Hl) as B. split; [exact (proj1 EC)|].
    assert (G : w_obj (a_w a') = w_obj (a_w a) /\ w_fd (a_w a') = w_fd (a_w a) /\ w_fs (a_w a') = w_fs (a_w a)).
    { destruct EC as (_ & _ & M). destruct r; try contradiction M.
      - destruct M as ([] & _). auto.
      - destruct M as (_ & []). auto.
      - destruct M. auto. }
    destruct G as (Ob & F & Fs). split; [exact Ob|]. split; [exact F|]. split; [exact Fs|]. split; [|split].
    - intros p. destruct EC as (_ & _ & M). destruct r as [s|e| | |]; try contradiction M.
      + destruct M as (SF & _ & first & n & V & _). rewrite V. destruct (w_vm (a_w a) p) as [e|], (in_pages first n p); cbn; try exact I;
          try (destruct adv; cbn; repeat split); repeat split.
      + destruct M as [_ Q]. rewrite (q_vm _ _ Q). destruct (w_vm (a_w a) p); [repeat split|exact I].
      + rewrite (q_vm _ _ M). destruct (w_vm (a_w a) p); [repeat split|exact I].
    - intros k' i Nk. destruct EC as (La & _ & M).
      destruct (a_live a k') as [l'|] eqn:Hl'.
      2:{ unfold read_at. cbn [step]. unfold with_map. rewrite La, Hl'. reflexivity. }
      apply (read_same t a a' k' l' l' i); auto; [rewrite La; exact Hl'| |rewrite Ob; auto].
      intros Hi. destruct (byte_page t Ht _ _ _ _ _ _ (ok_live _ _ OK k' l' Hl') i Hi) as (-> & Ow' & _).
      destruct r as [s|e| | |]; try contradiction M.
      + destruct M as (SF & _ & first & n & V & Ow & _). rewrite V. destruct (in_pages_cases first n ((m_ptr (l_map l') + i) / P)) as [[_ Ip]|[-> _]]; [|apply same_page_refl].
        elim (ok_apart _ _ OK _ _ _ _ _ Hl' Hl Nk Ow' (Ow _ Ip)).
      + destruct M as [_ Q]. rewrite (q_vm _ _ Q). apply same_page_refl.
      + rewrite (q_vm _ _ M). apply same_page_refl.
    - intros Ok. apply (entry_reads _ _ _ _ _ _ _ _ _ OK Hl EC). intros p e Hp Ev. destruct adv; try (repeat split; fail).
      destruct Ok as [X|Hs]; [contradiction X; reflexivity|]. destruct (bk_pages _ _ _ _ _ _ _ B p Hp) as (e' & Ev' & _ & _ & _ & _ & _ & C).
      rewrite Ev in Ev'. injection Ev' as <-. cbn. repeat split. symmetry. exact (C Hs).
  Qed.

  Lemma lock_reads a k l c off len op b r a' : api_ok t a -> a_live a k = Some l -> call_ok t c ->
    lock_call (m_len (l_map l)) c = Some (k, off, len, op, b) -> step t c a = (r, a') ->
    forall k' i, read_at t a' k' i = read_at t a k' i.
  Proof.
    intros OK Hl Ck S H. pose proof (lock_lemma _ _ _ _ _ _ _ _ _ _ OK Hl Ck S H) as EC.
    apply (entry_reads _ _ _ _ _ _ _ _ _ OK Hl EC). repeat split.
  Qed.
End Claims.
