(** The mapping properties, continued. *)
From Coq Require Import Lia.
From Verif Require Import Base ErrorModel SizeModel SizeProofs OsModel MapModel MapSpec OsProofs MapProofs MapCreate MapOps ApiModel ApiSpec ApiProofs MapClaims.

Section Claims.
  Variable t : target.
  Hypothesis Ht : posix_target t.
  Notation P := (t_page t).

  Lemma own_in m p : own_page t m p <-> in_pages (first_page t m) (page_count t m) p = true.
  Proof. rewrite in_pages_iff. unfold own_page. tauto. Qed.

  (** ** Whole-map calls on a range of entries *)
  Lemma whole_on_range op ok f m w o off shared maxw r w' : backed t w m o off shared maxw ->
    whole t m (fun p l => os_call op (on_range t p l ok f)) w = (r, w') ->
    match r with
    | Ret _ => (forall p, own_page t m p -> exists e, w_vm w p = Some e /\ ok e = Ret tt) /\
        (forall p, own_page t m p -> w_vm w' p = option_map f (w_vm w p)) /\
        (forall p, ~ own_page t m p -> w_vm w' p = w_vm w p) /\ same_files w w'
    | Err e => e_op e = op /\ quiet w w'
    | _ => False
    end.
  Proof.
    intros B H. rewrite (whole_eq t Ht _ _ _ _ _ _ _ w B) in H. apply os_call_inv in H.
    destruct r as [[]|e| | |]; try (apply (on_pages_spec t Ht) in H; contradiction H).
    - apply (on_pages_spec t Ht) in H as (H1 & H2 & SF). split; [exact H1|]. split; [|split; [|exact SF]].
      + intros p Hp. rewrite H2, (proj1 (own_in m p) Hp). reflexivity.
      + intros p Hp. rewrite H2. rewrite own_in in Hp. destruct (in_pages _ _ p); [contradiction Hp; reflexivity|reflexivity].
    - destruct H as (x & H & ->). apply (on_pages_spec t Ht) in H. split; [reflexivity|exact H].
  Qed.
  Lemma whole_on_range_grant op ok f m w o off shared maxw x q : backed t w m o off shared maxw -> w_orc w = Grant x :: q ->
    (forall p e, own_page t m p -> w_vm w p = Some e -> ok e = Ret tt) ->
    exists w', whole t m (fun p l => os_call op (on_range t p l ok f)) w = (Ret tt, w').
  Proof.
    intros B Q K. rewrite (whole_eq t Ht _ _ _ _ _ _ _ w B). destruct (pages_mul t Ht (first_page t m) (page_count t m)) as (M1 & M2 & M3).
    destruct (on_range_grant t (P * first_page t m) (P * page_count t m) ok f w x q Q M1) as (w' & E).
    - rewrite M2, M3. intros p Hp. destruct (bk_pages _ _ _ _ _ _ _ B p Hp) as (e & Ev & _). exists e. split; [exact Ev|]. exact (K p e Hp Ev).
    - exists w'. unfold os_call. rewrite E. reflexivity.
  Qed.

  (** ** C12, C13 *)
  Definition rw_ok (e : pte) : out Z unit := if negb (p_maxw e) then Err EACCES else Ret tt.

  Lemma convert_protect a k l (r : out (error * mapping) mapping) w' : api_ok t a -> a_live a k = Some l ->
    convert (l_map l) (whole t (l_map l) (fun p n => os_protect t p n ReadWrite)) (a_w a) = (r, w') ->
    match r with
    | Ret m => m = l_map l /\ l_maxw l = true /\ same_files (a_w a) w' /\
        (forall p, own_page t (l_map l) p -> w_vm w' p = option_map (set_prot PRW) (w_vm (a_w a) p)) /\
        (forall p, ~ own_page t (l_map l) p -> w_vm w' p = w_vm (a_w a) p)
    | Err (e, m) => m = l_map l /\ e_op e = OpProtect /\ quiet (a_w a) w'
    | _ => False
    end /\
    (forall x q, w_orc (a_w a) = Grant x :: q -> l_maxw l = true -> exists m, r = Ret m).
  Proof.
    intros OK Hl H. pose proof (ok_live _ _ OK k l Hl) as B.
    change (fun p n => os_protect t p n ReadWrite) with
      (fun p n => os_call OpProtect (on_range t p n rw_ok (set_prot PRW))) in H.
    split.
    - apply convert_inv in H. destruct r as [m|[e m]| | |].
      + destruct H as [-> H]. apply (whole_on_range _ _ _ _ _ _ _ _ _ _ _ B) in H as (H1 & H2 & H3 & SF).
        split; [reflexivity|]. split; [|auto]. destruct (H1 (first_page t (l_map l))) as (e & Ev & Ok).
        { pose proof (page_count_pos t Ht _ _ _ _ _ _ B). unfold own_page. lia. }
        destruct (bk_pages _ _ _ _ _ _ _ B (first_page t (l_map l))) as (e' & Ev' & _ & _ & _ & Em & _).
        { pose proof (page_count_pos t Ht _ _ _ _ _ _ B). unfold own_page. lia. }
        rewrite Ev in Ev'. injection Ev' as <-. unfold rw_ok in Ok. rewrite Em in Ok. destruct (l_maxw l); [reflexivity|discriminate Ok].
      + destruct H as [-> H]. apply (whole_on_range _ _ _ _ _ _ _ _ _ _ _ B) in H. auto.
      + apply (whole_on_range _ _ _ _ _ _ _ _ _ _ _ B) in H. exact H.
      + apply (whole_on_range _ _ _ _ _ _ _ _ _ _ _ B) in H. exact H.
      + apply (whole_on_range _ _ _ _ _ _ _ _ _ _ _ B) in H. exact H.
    - intros x q Q Mx. destruct (whole_on_range_grant OpProtect rw_ok (set_prot PRW) (l_map l) (a_w a) _ _ _ _ x q B Q) as (w1 & E).
      + intros p e Hp Ev. destruct (bk_pages _ _ _ _ _ _ _ B p Hp) as (e' & Ev' & _ & _ & _ & Em & _).
        rewrite Ev in Ev'. injection Ev' as <-. unfold rw_ok. rewrite Em, Mx. reflexivity.
      + unfold convert in H. rewrite E in H. injection H as <- _. eauto.
  Qed.

  Lemma reads_after_protect a k l l' w' k' i : api_ok t a -> a_live a k = Some l -> l_map l' = l_map l ->
    same_files (a_w a) w' ->
    (forall p, own_page t (l_map l) p -> w_vm w' p = option_map (set_prot PRW) (w_vm (a_w a) p)) ->
    (forall p, ~ own_page t (l_map l) p -> w_vm w' p = w_vm (a_w a) p) ->
    read_at t (put_live a w' k (Some l')) k' i = read_at t a k' i.
  Proof.
    intros OK Hl El SF V1 V2. pose proof (ok_live _ _ OK k l Hl) as B.
    assert (SP : forall p, same_page (w_vm (a_w a) p) (w_vm w' p)).
    { intros p. destruct (in_pages_cases (first_page t (l_map l)) (page_count t (l_map l)) p) as [[_ Ip]|[_ Ip]].
      - rewrite (V1 p Ip). destruct (bk_pages _ _ _ _ _ _ _ B p Ip) as (e & Ev & _ & _ & _ & _ & Er & _). rewrite Ev. cbn. repeat split. symmetry. exact Er.
      - rewrite (V2 p Ip). apply same_page_refl. }
    assert (Ob : forall o, o_size (w_obj w' o) = o_size (w_obj (a_w a) o) /\ o_data (w_obj w' o) = o_data (w_obj (a_w a) o)).
    { intros o. rewrite (sf_obj _ _ SF). auto. }
    destruct (Z.eq_dec k' k) as [->|Nk].
    - apply (read_same t a _ k l l' i); auto. cbn. apply put_same.
    - destruct (a_live a k') as [l2|] eqn:Hl2.
      + apply (read_same t a _ k' l2 l2 i); auto. cbn. rewrite put_other by exact Nk. exact Hl2.
      + unfold read_at. cbn [step]. unfold with_map. cbn [a_live put_live]. rewrite put_other by exact Nk. rewrite Hl2. reflexivity.
  Qed.
  Lemma reads_quiet a w' k i : quiet (a_w a) w' -> read_at t (set_w a w') k i = read_at t a k i.
  Proof.
    intros Q. destruct (a_live a k) as [l|] eqn:Hl.
    - apply (read_same t a (set_w a w') k l l i); auto; cbn; rewrite ?(q_vm _ _ Q), ?(q_obj _ _ Q); auto using same_page_refl.
    - unfold read_at. cbn [step]. unfold with_map. cbn [a_live set_w]. rewrite Hl. reflexivity.
  Qed.

  Lemma to_mut_lemma a k l r a' : api_ok t a -> a_live a k = Some l -> l_mut l = false -> step t (CToMut k) a = (r, a') ->
    (forall k' i, read_at t a' k' i = read_at t a k' i) /\
    (match r with
     | Ret _ => l_maxw l = true /\ a_live a' k = Some (set_mut l true) /\
         (forall p e, own_page t (l_map l) p -> w_vm (a_w a') p = Some e -> p_w e = true /\ p_x e = false)
     | Err e => e_op e = OpProtect /\ a_live a' = a_live a /\ quiet (a_w a) (a_w a')
     | _ => False
     end) /\
    (forall x q, w_orc (a_w a) = Grant x :: q -> (r = Ret SNone <-> l_maxw l = true)).
  Proof.
    intros OK Hl Hm H. cbn [step] in H. unfold with_map in H. rewrite Hl, Hm in H. rewrite to_mut_whole in H.
    destruct (convert _ _ (a_w a)) as [r1 w1] eqn:E. destruct (convert_protect a k l r1 w1 OK Hl E) as [M G].
    destruct r1 as [m|[e m]| | |]; try contradiction M; injection H as <- <-.
    - destruct M as (-> & Mx & SF & V1 & V2). split; [|split].
      + intros k' i. apply (reads_after_protect a k l); auto.
      + split; [exact Mx|]. split; [cbn; apply put_same|]. cbn [a_w put_live]. intros p e Hp Ev. rewrite (V1 p Hp) in Ev.
        destruct (w_vm (a_w a) p); [injection Ev as <-; split; reflexivity|discriminate Ev].
      + tauto.
    - destruct M as (-> & Op & Q). split; [|split].
      + intros k' i. apply reads_quiet, Q.
      + auto.
      + intros x q Hq. split; [discriminate|]. intros Mx. destruct (G x q Hq Mx) as (m & X). discriminate X.
  Qed.

  Lemma to_map_lemma a k l r a' : api_ok t a -> a_live a k = Some l -> l_mut l = true -> step t (CToMap k) a = (r, a') ->
    (forall k' i, read_at t a' k' i = read_at t a k' i) /\
    (match r with
     | Ret _ => a_live a' k = Some (set_mut l false) /\
         (forall p, own_page t (l_map l) p -> exists e, w_vm (a_w a') p = Some e /\ p_w e = true)
     | Err e => e_op e = OpProtect /\ a_live a' = a_live a /\ quiet (a_w a) (a_w a')
     | _ => False
     end).
  Proof.
    intros OK Hl Hm H. pose proof (ok_live _ _ OK k l Hl) as B.
    cbn [step] in H. unfold with_map in H. rewrite Hl, Hm in H. cbn [negb] in H. rewrite to_map_whole in H.
    destruct (convert _ _ (a_w a)) as [r1 w1] eqn:E. destruct (convert_protect a k l r1 w1 OK Hl E) as [M G].
    destruct r1 as [m|[e m]| | |]; try contradiction M; injection H as <- <-.
    - destruct M as (-> & Mx & SF & V1 & V2). split.
      + intros k' i. apply (reads_after_protect a k l); auto.
      + split; [cbn; apply put_same|]. cbn [a_w put_live]. intros p Hp. rewrite (V1 p Hp).
        destruct (bk_pages _ _ _ _ _ _ _ B p Hp) as (e & Ev & _). rewrite Ev. eexists. split; reflexivity.
    - destruct M as (-> & Op & Q). split.
      + intros k' i. apply reads_quiet, Q.
      + auto.
  Qed.

  (** ** C14 *)
  Lemma drop_lemma a k l r a' x q : api_ok t a -> a_live a k = Some l -> step t (CDrop k) a = (r, a') ->
    w_orc (a_w a) = Grant x :: q ->
    r = Ret SNone /\ a_live a' k = None /\ same_files (a_w a) (a_w a') /\
    (0 < m_len (l_map l) -> forall p, w_vm (a_w a') p = if in_pages (first_page t (l_map l)) (page_count t (l_map l)) p then None else w_vm (a_w a) p) /\
    (m_len (l_map l) = 0 -> w_vm (a_w a') = w_vm (a_w a) /\
       exists p e, own_page t (l_map l) p /\ w_vm (a_w a') p = Some e).
  Proof.
    intros OK Hl H Hq. pose proof (ok_live _ _ OK k l Hl) as B. pose proof (page_count_pos t Ht _ _ _ _ _ _ B) as PC.
    cbn [step] in H. unfold with_map in H. rewrite Hl in H.
    destruct (drop_map t (l_map l) (a_w a)) as [r1 w1] eqn:E.
    destruct (drop_spec t Ht _ _ _ _ _ _ _ _ _ B E) as [-> D]. injection H as <- <-. cbn [a_live a_w put_live].
    split; [reflexivity|]. split; [apply put_same|].
    destruct D as [[Q Why]|(Lt & SF & D1 & D2)].
    - destruct Why as [Z0|(e & Ew & Ee)].
      + assert (w1 = a_w a).
        { unfold drop_map in E. rewrite Z0 in E. cbn in E. injection E as <-. reflexivity. }
        subst w1. split; [split; reflexivity|]. split; [lia|]. intros _. split; [reflexivity|].
        exists (first_page t (l_map l)). assert (Ow : own_page t (l_map l) (first_page t (l_map l))) by (unfold own_page; lia).
        destruct (bk_pages _ _ _ _ _ _ _ B _ Ow) as (e & Ev & _). eauto.
      + destruct (munmap_grant t Ht (first_page t (l_map l)) (page_count t (l_map l)) _ _ _ PC Hq) as (w2 & E2).
        rewrite E2 in Ee. discriminate Ee.
    - split; [exact SF|]. split.
      + intros _ p. destruct (in_pages_cases (first_page t (l_map l)) (page_count t (l_map l)) p) as [[-> Ip]|[-> Ip]]; auto.
      + lia.
  Qed.

  (** Creating and dropping again. *)
  Definition same_shape (w w' : world) : Prop :=
    forall p, match w_vm w p, w_vm w' p with
              | Some e, Some e' => unmoved e e'
              | None, None => True
              | _, _ => False
              end.
  Lemma drop_created w w1 m o off p maxw w2 r x q : created t w w1 m o off p maxw -> 0 < m_len m ->
    w_orc w1 = Grant x :: q -> drop_map t m w1 = (r, w2) -> forall p, w_vm w2 p = w_vm w p.
  Proof.
    intros C Lt Hq E p'. pose proof (cr_backed _ _ _ _ _ _ _ _ C) as B. pose proof (page_count_pos t Ht _ _ _ _ _ _ B) as PC.
    destruct (drop_spec t Ht _ _ _ _ _ _ _ _ _ B E) as [-> D].
    destruct D as [[Q Why]|(_ & SF & D1 & D2)].
    - destruct Why as [Z0|(e & Ew & Ee)]; [lia|].
      destruct (munmap_grant t Ht (first_page t m) (page_count t m) _ _ _ PC Hq) as (w3 & E2). rewrite E2 in Ee. discriminate Ee.
    - destruct (in_pages_cases (first_page t m) (page_count t m) p') as [[_ Ip]|[_ Ip]].
      + rewrite (D1 _ Ip), (cr_free _ _ _ _ _ _ _ _ C _ Ip). reflexivity.
      + rewrite (D2 _ Ip), (cr_rest _ _ _ _ _ _ _ _ C _ Ip). reflexivity.
  Qed.
  Lemma map_drop o fd w m w1 r w2 x q : wf w -> options_ok t o -> map_if t o fd w = (Ret (Some m), w1) -> 0 < m_len m ->
    w_orc w1 = Grant x :: q -> drop_map t m w1 = (r, w2) -> same_shape w w2 /\ w_fd w2 = w_fd w.
  Proof.
    intros W O H Lt Hq D. pose proof (map_if_spec t Ht _ _ _ _ _ W O H) as M.
    destruct (w_fd w fd) as [f|] eqn:Ef; [|destruct M as (e & X & _); discriminate X].
    destruct M as (w0 & FD & L & _ & _ & _ & _ & C & SF). pose proof (fdn_touched _ _ _ _ _ FD) as T. split.
    - intros p. rewrite (drop_created _ _ _ _ _ _ _ _ _ _ _ C Lt Hq D). pose proof (tc_vm _ _ _ T p) as V.
      destruct (w_vm w p), (w_vm w0 p); try exact V. exact (proj1 V).
    - destruct (drop_spec t Ht _ _ _ _ _ _ _ _ _ (cr_backed _ _ _ _ _ _ _ _ C) D) as [_ [[Q _]|(_ & SF2 & _)]].
      + rewrite (q_fd _ _ Q), (sf_fd _ _ SF). exact (tc_fd _ _ _ T).
      + rewrite (sf_fd _ _ SF2), (sf_fd _ _ SF). exact (tc_fd _ _ _ T).
  Qed.
  Lemma alloc_drop o w m w1 r w2 x q : wf w -> options_ok t o -> alloc_fits t o \/ t_checks t = true ->
    alloc t o w = (Ret m, w1) -> 0 < m_len m -> w_orc w1 = Grant x :: q -> drop_map t m w1 = (r, w2) ->
    (forall p, w_vm w2 p = w_vm w p) /\ w_fd w2 = w_fd w.
  Proof.
    intros W O Fit H Lt Hq D. pose proof (alloc_spec t Ht _ _ _ _ W O Fit H) as (_ & _ & _ & C & _ & F & _).
    split; [exact (drop_created _ _ _ _ _ _ _ _ _ _ _ C Lt Hq D)|].
    destruct (drop_spec t Ht _ _ _ _ _ _ _ _ _ (cr_backed _ _ _ _ _ _ _ _ C) D) as [_ [[Q _]|(_ & SF2 & _)]].
    - rewrite (q_fd _ _ Q). exact F.
    - rewrite (sf_fd _ _ SF2). exact F.
  Qed.

  (** ** C16, C17 *)
  Definition range_run (c : call) (m : mapping) : ST error unit :=
    match c with
    | CFlushRange _ off len md => flush_range t m off len md
    | CAdviseRange _ off len adv => advise_range t m off len adv
    | CLockRange _ off len => lock_range t m off len
    | CUnlockRange _ off len => unlock_range t m off len
    | _ => sret tt
    end.
  Definition range_sys (c : call) (addr len : Z) : ST error unit :=
    match c with
    | CFlushRange _ _ _ md => os_flush t addr len md
    | CAdviseRange _ _ _ adv => os_advise t addr len adv
    | CLockRange _ _ _ => os_lock t addr len
    | CUnlockRange _ _ _ => os_unlock t addr len
    | _ => sret tt
    end.
  Lemma range_run_eq c k off len op m : range_call c = Some (k, off, len, op) ->
    range_run c m = ranged t op m off len (range_sys c).
  Proof. destruct c; try discriminate; intros H; injection H as <- <- <- <-; reflexivity. Qed.
  Lemma step_range c k off len op a l : range_call c = Some (k, off, len, op) -> a_live a k = Some l -> (is_flush c = true -> l_mut l = true) ->
    step t c a = unit_call a (range_run c (l_map l) (a_w a)).
  Proof.
    destruct c; try discriminate; intros H Hl Hf; injection H as <- <- <- <-; cbn [step]; unfold with_map; rewrite Hl; try reflexivity.
    rewrite (Hf eq_refl). reflexivity.
  Qed.

  Lemma range_checked c k off len op a l : api_ok t a -> range_call c = Some (k, off, len, op) -> a_live a k = Some l ->
    (is_flush c = true -> l_mut l = true) -> is_usize t off -> is_usize t len ->
    (off + len < 2 ^ t_bits t \/ t_checks t = true) ->
    (m_len (l_map l) < off + len -> off + len < 2 ^ t_bits t ->
       step t c a = (Err {| e_repr := RInput InvalidRange; e_op := op |}, a)) /\
    (2 ^ t_bits t <= off + len -> step t c a = (Panic, a)) /\
    (off + len <= m_len (l_map l) -> fst (step t c a) <> Err {| e_repr := RInput InvalidRange; e_op := op |}).
  Proof.
    intros OK Hc Hl Hf U1 U2 Fit. pose proof (ok_live _ _ OK k l Hl) as B.
    rewrite (step_range _ _ _ _ _ _ _ Hc Hl Hf), (range_run_eq _ _ _ _ _ (l_map l) Hc).
    pose proof (ranged_cases t Ht _ _ _ _ _ _ op off len (range_sys c) (a_w a) B U1 U2 Fit) as R.
    assert (Ea : set_w a (a_w a) = a) by (destruct a; reflexivity).
    destruct (Z.leb_spec (off + len) (m_len (l_map l))) as [Le|Gt].
    - pose proof (map_end t Ht (l_map l)) as ME. pose proof (bk_hi _ _ _ _ _ _ _ B). pose proof (bk_lo _ _ _ _ _ _ _ B). pose proof (P_pos t Ht).
      split; [lia|]. split; [lia|]. intros _. destruct R as (x & n & E & _). rewrite E.
      assert (Y : forall r w', range_sys c (P * x) (P * n) (a_w a) = (r, w') -> r <> Err {| e_repr := RInput InvalidRange; e_op := op |}).
      { intros r w' Y. destruct c; try discriminate Hc; cbn [range_sys] in Y;
          unfold os_flush, os_advise, os_lock, os_unlock in Y; apply os_call_inv in Y; intros ->; destruct Y as (z & _ & Y); discriminate Y. }
      destruct (range_sys c (P * x) (P * n) (a_w a)) as [r w'] eqn:Er. specialize (Y r w' eq_refl). destruct r as [u|e| | |]; cbn; congruence.
    - destruct (Z.ltb_spec (off + len) (2 ^ t_bits t)) as [Lt|Ge]; rewrite R; cbn [unit_call]; rewrite Ea.
      + split; [reflexivity|]. split; lia.
      + split; [lia|]. split; [reflexivity|lia].
  Qed.

  Lemma range_pages c k off len op a l : api_ok t a -> range_call c = Some (k, off, len, op) -> a_live a k = Some l ->
    is_usize t off -> is_usize t len -> off + len <= m_len (l_map l) ->
    exists first n, range_run c (l_map l) (a_w a) = range_sys c (P * first) (P * n) (a_w a) /\
      P * first <= m_ptr (l_map l) + off /\ m_ptr (l_map l) + off + len <= P * (first + n) /\
      (forall p, first <= p < first + n -> own_page t (l_map l) p) /\
      (0 < len -> forall p, first <= p < first + n -> meets t p (m_ptr (l_map l) + off) len) /\
      (len = 0 -> n <= 1).
  Proof.
    intros OK Hc Hl U1 U2 Le. pose proof (ok_live _ _ OK k l Hl) as B. pose proof (P_pos t Ht) as HP.
    pose proof (map_end t Ht (l_map l)) as ME. pose proof (bk_hi _ _ _ _ _ _ _ B). pose proof (bk_lo _ _ _ _ _ _ _ B).
    assert (Fit : off + len < 2 ^ t_bits t \/ t_checks t = true) by lia.
    pose proof (ranged_cases t Ht _ _ _ _ _ _ op off len (range_sys c) (a_w a) B U1 U2 Fit) as R.
    rewrite (proj2 (Z.leb_le _ _) Le) in R. destruct R as (x & n & E & Ex & R1 & R2 & R3 & R4 & R5 & R6 & R7).
    exists x, n. rewrite (range_run_eq _ _ _ _ _ (l_map l) Hc). split; [exact E|]. split; [exact R1|]. split; [exact R2|].
    split; [unfold own_page; lia|]. split.
    - intros Lp p Hp. specialize (R6 Lp). unfold meets. pose proof (page_div t Ht (m_ptr (l_map l) + off)) as [D1 D2]. rewrite <- Ex in D1. split; nia.
    - intros Lz. exact (proj1 (R7 Lz)).
  Qed.
  Lemma whole_pages a k l f : api_ok t a -> a_live a k = Some l ->
    whole t (l_map l) f (a_w a) = f (P * first_page t (l_map l)) (P * page_count t (l_map l)) (a_w a) /\
    P * first_page t (l_map l) <= m_ptr (l_map l) /\
    m_ptr (l_map l) + m_len (l_map l) <= P * (first_page t (l_map l) + page_count t (l_map l)).
  Proof.
    intros OK Hl. pose proof (ok_live _ _ OK k l Hl) as B. split; [exact (whole_eq t Ht _ _ _ _ _ _ f (a_w a) B)|].
    pose proof (map_end t Ht (l_map l)). pose proof (ptr_split t Ht (l_map l)). lia.
  Qed.
End Claims.
