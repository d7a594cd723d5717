(** Lemmas about the kernel model. *)
From Coq Require Import Lia.
From Verif Require Import Base OsModel.

(** Everything but the list of answers is as before. *)
Record quiet (w w' : world) : Prop := {
  q_vm : w_vm w' = w_vm w;
  q_obj : w_obj w' = w_obj w;
  q_next : w_next w' = w_next w;
  q_fd : w_fd w' = w_fd w;
  q_fs : w_fs w' = w_fs w
}.

Lemma quiet_refl w : quiet w w.
Proof. split; reflexivity. Qed.
Lemma quiet_trans w1 w2 w3 : quiet w1 w2 -> quiet w2 w3 -> quiet w1 w3.
Proof. intros [] []. split; congruence. Qed.
Lemma quiet_orc w l : quiet w (set_orc w l).
Proof. split; reflexivity. Qed.

(** A refused or granted call. *)
Lemma ask_inv {A} (k : Z -> ST Z A) w r w' : ask k w = (r, w') ->
  (exists e, r = Err e /\ quiet w w') \/
  (exists a o, w_orc w = Grant a :: o /\ k a (set_orc w o) = (r, w')).
Proof.
  unfold ask. destruct (w_orc w) as [|[e|a] o] eqn:E; intros H.
  - injection H as <- <-. left. eexists. split; [reflexivity|apply quiet_refl].
  - injection H as <- <-. left. eexists. split; [reflexivity|apply quiet_orc].
  - right. exists a, o. auto.
Qed.

Lemma put_same {A} (f : Z -> A) i x : put f i x i = x.
Proof. unfold put. rewrite Z.eqb_refl. reflexivity. Qed.
Lemma put_other {A} (f : Z -> A) i x j : j <> i -> put f i x j = f j.
Proof. intros H. unfold put. apply Z.eqb_neq in H. rewrite H. reflexivity. Qed.

Lemma in_pages_iff a n p : in_pages a n p = true <-> a <= p < a + n.
Proof. unfold in_pages. rewrite andb_true_iff, Z.leb_le, Z.ltb_lt. tauto. Qed.
Lemma in_pages_yes a n p : a <= p < a + n -> in_pages a n p = true.
Proof. apply in_pages_iff. Qed.
Lemma in_pages_no a n p : ~ (a <= p < a + n) -> in_pages a n p = false.
Proof. intros H. apply not_true_is_false. rewrite in_pages_iff. exact H. Qed.
Lemma in_pages_cases a n p :
  (in_pages a n p = true /\ a <= p < a + n) \/ (in_pages a n p = false /\ ~ (a <= p < a + n)).
Proof.
  destruct (in_pages a n p) eqn:E; [left|right]; (split; [reflexivity|]).
  - apply in_pages_iff, E.
  - rewrite <- in_pages_iff, E. discriminate.
Qed.

Lemma page_seq_In a n p : In p (page_seq a n) <-> a <= p < a + n.
Proof.
  unfold page_seq. rewrite in_map_iff. split.
  - intros (k & <- & H). apply in_seq in H. lia.
  - intros H. exists (Z.to_nat (p - a)). split; [lia|]. apply in_seq. lia.
Qed.

Lemma free_range_iff w a n : free_range w a n = true <-> forall p, a <= p < a + n -> w_vm w p = None.
Proof.
  unfold free_range. rewrite forallb_forall. split; intros H p Hp.
  - specialize (H p (proj2 (page_seq_In _ _ _) Hp)). destruct (w_vm w p); [discriminate|reflexivity].
  - apply page_seq_In in Hp. rewrite (H p Hp). reflexivity.
Qed.
Lemma mapped_range_iff w a n : mapped_range w a n = true <-> forall p, a <= p < a + n -> exists e, w_vm w p = Some e.
Proof.
  unfold mapped_range. rewrite forallb_forall. split; intros H p Hp.
  - specialize (H p (proj2 (page_seq_In _ _ _) Hp)). destruct (w_vm w p) as [e|]; [exists e; reflexivity|discriminate].
  - apply page_seq_In in Hp. destruct (H p Hp) as (e & ->). reflexivity.
Qed.

(** The check run by [on_range] over all entries. *)
Lemma check_fold (vm : Z -> option pte) (ok : pte -> out Z unit) l :
  let r := fold_left (fun acc p => match acc, vm p with Ret _, Some e => ok e | _, _ => acc end) l (Ret tt) in
  (r = Ret tt -> forall p e, In p l -> vm p = Some e -> ok e = Ret tt) /\
  ((forall p e, In p l -> vm p = Some e -> ok e = Ret tt) -> r = Ret tt).
Proof.
  assert (Stuck : forall l acc, acc <> Ret tt ->
    fold_left (fun acc p => match acc, vm p with Ret _, Some e => ok e | _, _ => acc end) l acc = acc).
  { induction l0 as [|p l0 IH]; intros acc H; [reflexivity|]. cbn. rewrite IH; destruct acc as [[]| | | |]; congruence. }
  cbv zeta. induction l as [|p l [IH1 IH2]]; cbn.
  - split; [intros _ p e []|reflexivity].
  - destruct (vm p) as [e|] eqn:E.
    + destruct (ok e) as [[]|x| | |] eqn:O.
      * split.
        -- intros H q e' [<-|Hq] Hv; [congruence|]. exact (IH1 H q e' Hq Hv).
        -- intros H. apply IH2. intros q e' Hq. exact (H q e' (or_intror Hq)).
      * rewrite Stuck by discriminate. split; [discriminate|]. intros H. rewrite <- (H p e (or_introl eq_refl) E), O. reflexivity.
      * rewrite Stuck by discriminate. split; [discriminate|]. intros H. rewrite <- (H p e (or_introl eq_refl) E), O. reflexivity.
      * rewrite Stuck by discriminate. split; [discriminate|]. intros H. rewrite <- (H p e (or_introl eq_refl) E), O. reflexivity.
      * rewrite Stuck by discriminate. split; [discriminate|]. intros H. rewrite <- (H p e (or_introl eq_refl) E), O. reflexivity.
    + split.
      * intros H q e' [<-|Hq] Hv; [congruence|]. exact (IH1 H q e' Hq Hv).
      * intros H. apply IH2. intros q e' Hq. exact (H q e' (or_intror Hq)).
Qed.

Section Kernel.
  Variable t : target.
  Hypothesis HP : 0 < t_page t.
  Notation P := (t_page t).

  Lemma npages_bounds len : len <= P * npages t len < len + P.
  Proof.
    unfold npages. pose proof (Z.div_mod (len + P - 1) P ltac:(lia)). pose proof (Z.mod_pos_bound (len + P - 1) P HP). lia.
  Qed.
  Lemma npages_nonneg len : 0 <= len -> 0 <= npages t len.
  Proof. intros H. pose proof (npages_bounds len). nia. Qed.
  Lemma npages_pos len : 0 < len -> 0 < npages t len.
  Proof. intros H. pose proof (npages_bounds len). nia. Qed.
  Lemma npages_mul n : npages t (P * n) = n.
  Proof. pose proof (npages_bounds (P * n)). nia. Qed.
  (** [k] is the number of pages when it is the least that covers. *)
  Lemma npages_unique len k : len <= P * k < len + P -> npages t len = k.
  Proof. intros H. pose proof (npages_bounds len). nia. Qed.

  Lemma range_ok_iff a len : range_ok t a len = true <->
    P <= a /\ a mod P = 0 /\ a + P * npages t len <= 2 ^ t_bits t - P.
  Proof. unfold range_ok. rewrite !andb_true_iff, !Z.leb_le, Z.eqb_eq. tauto. Qed.

  (** ** mmap without MAP_FIXED *)
  Record mapped (w w' : world) (a len o idx : Z) (pr : prot) (shared maxw : bool) : Prop := {
    mp_len : 0 < len;
    mp_range : range_ok t a len = true;
    mp_free : forall p, a / P <= p < a / P + npages t len -> w_vm w p = None;
    mp_vm : forall p, w_vm w' p = if in_pages (a / P) (npages t len) p
                                  then Some (entry o (idx + (p - a / P)) pr shared maxw) else w_vm w p;
    mp_fd : w_fd w' = w_fd w;
    mp_fs : w_fs w' = w_fs w
  }.

  Lemma mmap_spec addr len pr shared anon fd off w r w' :
    sys_mmap t false addr len pr shared anon fd off w = (r, w') ->
    match r with
    | Ret a => 0 <= off /\ off mod P = 0 /\
        if anon then
          mapped w w' a len (w_next w) (off / P) pr shared true /\ w_next w' = w_next w + 1 /\
          w_obj w' = put (w_obj w) (w_next w)
            {| o_size := P * npages t len; o_data := fun _ => 0; o_disk := fun _ => 0 |}
        else exists f, w_fd w fd = Some f /\ (shared && pr_w pr = true -> fd_w f = true) /\
          mapped w w' a len (fd_obj f) (off / P) pr shared (negb shared || fd_w f) /\
          w_next w' = w_next w /\ w_obj w' = w_obj w
    | Err _ => quiet w w'
    | _ => False
    end.
  Proof.
    unfold sys_mmap. intros H. apply ask_inv in H as [(e & -> & Q)|(a & o & Ho & H)]; [exact Q|].
    assert (Q0 : quiet w (set_orc w o)) by apply quiet_orc.
    destruct (len <=? 0) eqn:El; [injection H as <- <-; exact Q0|]. apply Z.leb_gt in El.
    destruct ((off <? 0) || negb (off mod P =? 0)) eqn:Eo; [injection H as <- <-; exact Q0|].
    apply orb_false_elim in Eo as [Eo1 Eo2]. apply Z.ltb_ge in Eo1. apply negb_false_iff, Z.eqb_eq in Eo2.
    cbv zeta in H. destruct (range_ok t a len) eqn:Er; cbn [negb] in H; [|injection H as <- <-; exact Q0].
    change (negb false) with true in H. cbn [andb] in H.
    destruct (free_range (set_orc w o) (a / P) (npages t len)) eqn:Ef; cbn [negb] in H; [|injection H as <- <-; exact Q0].
    assert (Fr : forall p, a / P <= p < a / P + npages t len -> w_vm w p = None).
    { exact (proj1 (free_range_iff _ _ _) Ef). }
    unfold backing in H. destruct anon.
    - injection H as <- <-. split; [exact Eo1|]. split; [exact Eo2|]. split; [|split; reflexivity].
      split; cbn; try reflexivity; assumption.
    - cbn [w_fd set_orc] in H. destruct (w_fd w fd) as [f|] eqn:Efd; [|injection H as <- <-; exact Q0].
      destruct (shared && pr_w pr && negb (fd_w f)) eqn:Ew; [injection H as <- <-; exact Q0|].
      injection H as <- <-. split; [exact Eo1|]. split; [exact Eo2|]. exists f. split; [reflexivity|]. split.
      { intros S. rewrite S in Ew. cbn in Ew. apply negb_false_iff in Ew. exact Ew. }
      split; [|split; reflexivity]. split; cbn; try reflexivity; assumption.
  Qed.

  (** ** munmap *)
  Lemma munmap_spec addr len w r w' : sys_munmap t addr len w = (r, w') ->
    match r with
    | Ret _ => 0 < len /\ addr mod P = 0 /\
        (forall p, w_vm w' p = if in_pages (addr / P) (npages t len) p then None else w_vm w p) /\
        w_obj w' = w_obj w /\ w_next w' = w_next w /\ w_fd w' = w_fd w /\ w_fs w' = w_fs w
    | Err _ => quiet w w'
    | _ => False
    end.
  Proof.
    unfold sys_munmap. intros H. apply ask_inv in H as [(e & -> & Q)|(a & o & Ho & H)]; [exact Q|].
    destruct ((len <=? 0) || negb (addr mod P =? 0)) eqn:E; injection H as <- <-; [apply quiet_orc|].
    apply orb_false_elim in E as [E1 E2]. apply Z.leb_gt in E1. apply negb_false_iff, Z.eqb_eq in E2.
    split; [exact E1|]. split; [exact E2|]. cbn. repeat split.
  Qed.

  (** ** Calls that change entries in place *)
  Lemma on_range_spec addr len ok f w r w' : on_range t addr len ok f w = (r, w') ->
    match r with
    | Ret _ => addr mod P = 0 /\
        (forall p, addr / P <= p < addr / P + npages t len -> exists e, w_vm w p = Some e /\ ok e = Ret tt) /\
        (forall p, w_vm w' p = if in_pages (addr / P) (npages t len) p then option_map f (w_vm w p) else w_vm w p) /\
        w_obj w' = w_obj w /\ w_next w' = w_next w /\ w_fd w' = w_fd w /\ w_fs w' = w_fs w
    | Err _ => quiet w w'
    | _ => False
    end.
  Proof.
    unfold on_range. intros H. apply ask_inv in H as [(e & -> & Q)|(a & o & Ho & H)]; [exact Q|].
    destruct (addr mod P =? 0) eqn:Ea; cbn [negb] in H; [|injection H as <- <-; apply quiet_orc].
    apply Z.eqb_eq in Ea. cbv zeta in H.
    destruct (mapped_range (set_orc w o) (addr / P) (npages t len)) eqn:Em; cbn [negb] in H;
      [|injection H as <- <-; apply quiet_orc].
    pose proof (proj1 (mapped_range_iff _ _ _) Em) as M. cbn [w_vm set_orc] in M.
    pose proof (check_fold (w_vm (set_orc w o)) ok (page_seq (addr / P) (npages t len))) as [C _]. cbv zeta in C.
    destruct (fold_left _ _ _) as [[]|x| | |] eqn:Ef; injection H as <- <-; try apply quiet_orc.
    split; [exact Ea|]. split.
    - intros p Hp. destruct (M p Hp) as (e & He). exists e. split; [exact He|].
      refine (C eq_refl p e _ He). apply page_seq_In, Hp.
    - cbn. repeat split.
  Qed.
  Lemma on_range_grant addr len ok f w a o : w_orc w = Grant a :: o -> addr mod P = 0 ->
    (forall p, addr / P <= p < addr / P + npages t len -> exists e, w_vm w p = Some e /\ ok e = Ret tt) ->
    exists w', on_range t addr len ok f w = (Ret tt, w').
  Proof.
    intros Ho Ha H. unfold on_range, ask. rewrite Ho, Ha. cbn [Z.eqb negb]. cbv zeta.
    assert (M : mapped_range (set_orc w o) (addr / P) (npages t len) = true).
    { apply mapped_range_iff. intros p Hp. destruct (H p Hp) as (e & He & _). exists e. exact He. }
    rewrite M. cbn [negb].
    pose proof (check_fold (w_vm (set_orc w o)) ok (page_seq (addr / P) (npages t len))) as [_ C]. cbv zeta in C.
    rewrite C; [eexists; reflexivity|]. intros p e Hp He. apply page_seq_In in Hp.
    destruct (H p Hp) as (e' & He' & O). cbn in He. congruence.
  Qed.

  (** ** msync *)
  Lemma msync_spec addr len sync w r w' : sys_msync t addr len sync w = (r, w') ->
    match r with
    | Ret _ => addr mod P = 0 /\
        (forall p, addr / P <= p < addr / P + npages t len -> exists e, w_vm w p = Some e) /\
        w_vm w' = w_vm w /\ w_next w' = w_next w /\ w_fd w' = w_fd w /\ w_fs w' = w_fs w /\
        (forall o, o_size (w_obj w' o) = o_size (w_obj w o) /\ o_data (w_obj w' o) = o_data (w_obj w o) /\
           forall i, o_disk (w_obj w' o) i =
             if sync && syncs t w (addr / P) (npages t len) o i then o_data (w_obj w o) i else o_disk (w_obj w o) i)
    | Err _ => quiet w w'
    | _ => False
    end.
  Proof.
    unfold sys_msync. intros H. apply ask_inv in H as [(e & -> & Q)|(a & o & Ho & H)]; [exact Q|].
    destruct (addr mod P =? 0) eqn:Ea; cbn [negb] in H; [|injection H as <- <-; apply quiet_orc].
    apply Z.eqb_eq in Ea. cbv zeta in H.
    destruct (mapped_range (set_orc w o) (addr / P) (npages t len)) eqn:Em; cbn [negb] in H;
      [|injection H as <- <-; apply quiet_orc].
    pose proof (proj1 (mapped_range_iff _ _ _) Em) as M. cbn [w_vm set_orc] in M.
    injection H as <- <-. split; [exact Ea|]. split; [exact M|]. destruct sync; cbn; repeat split.
  Qed.

  Lemma syncs_iff w a n o i : syncs t w a n o i = true <->
    exists p e, a <= p < a + n /\ w_vm w p = Some e /\ p_shared e = true /\ p_obj e = o /\ p_idx e = i / P.
  Proof.
    unfold syncs. rewrite existsb_exists. split.
    - intros (p & Hp & H). apply page_seq_In in Hp. destruct (w_vm w p) as [e|] eqn:E; [|discriminate].
      apply andb_prop in H as [H H3]. apply andb_prop in H as [H1 H2]. apply Z.eqb_eq in H2, H3.
      exists p, e. auto.
    - intros (p & e & Hp & E & H1 & H2 & H3). exists p. split; [apply page_seq_In, Hp|].
      rewrite E, H1, H2, H3, !Z.eqb_refl. reflexivity.
  Qed.

  (** ** Length changes *)
  Definition same_place (e e' : pte) : Prop :=
    p_obj e' = p_obj e /\ p_idx e' = p_idx e /\ p_r e' = p_r e /\ p_w e' = p_w e /\ p_x e' = p_x e /\
    p_shared e' = p_shared e /\ p_maxw e' = p_maxw e /\ p_lock e' = p_lock e.

  Lemma same_place_refl e : same_place e e.
  Proof. repeat split. Qed.
  Lemma same_place_trans e1 e2 e3 : same_place e1 e2 -> same_place e2 e3 -> same_place e1 e3.
  Proof. unfold same_place. intuition congruence. Qed.

  (** Entries after a length change of object [o] to [sz]. *)
  Definition resized_vm (o sz : Z) (vm vm' : Z -> option pte) : Prop :=
    forall p, match vm p, vm' p with
              | Some e, Some e' => same_place e e' /\
                 (p_copy e' = p_copy e \/
                  (p_copy e' = None /\ p_obj e = o /\ p_shared e = false /\ sz <= P * p_idx e))
              | None, None => True
              | _, _ => False
              end.

  Lemma resize_obj_spec o sz w : let w' := resize_obj t o sz w in
    resized_vm o sz (w_vm w) (w_vm w') /\
    w_next w' = w_next w /\ w_fd w' = w_fd w /\ w_fs w' = w_fs w /\
    (forall o', o' <> o -> w_obj w' o' = w_obj w o') /\
    o_size (w_obj w' o) = sz /\
    (forall i, o_data (w_obj w' o) i = if i <? Z.min (o_size (w_obj w o)) sz then o_data (w_obj w o) i else 0) /\
    (forall i, o_disk (w_obj w' o) i = if i <? Z.min (o_size (w_obj w o)) sz then o_disk (w_obj w o) i else 0).
  Proof.
    cbv zeta. unfold resize_obj. cbn. rewrite !put_same. cbn. split.
    - intros p. destruct (w_vm w p) as [e|]; [|exact I].
      destruct ((p_obj e =? o) && negb (p_shared e) && (sz <=? P * p_idx e)) eqn:E.
      + apply andb_prop in E as [E E3]. apply andb_prop in E as [E1 E2]. apply Z.eqb_eq in E1. apply Z.leb_le in E3.
        apply negb_true_iff in E2. split; [repeat split|]. right. auto.
      + split; [apply same_place_refl|]. left. reflexivity.
    - repeat split. intros o' Ho. rewrite put_other by exact Ho. reflexivity.
  Qed.

  Lemma ftruncate_spec fd sz w r w' : sys_ftruncate t fd sz w = (r, w') ->
    match r with
    | Ret _ => exists f o, w_fd w fd = Some f /\ fd_w f = true /\ 0 <= sz /\ w' = resize_obj t (fd_obj f) sz (set_orc w o)
    | Err _ => quiet w w'
    | _ => False
    end.
  Proof.
    unfold sys_ftruncate. intros H. apply ask_inv in H as [(e & -> & Q)|(a & o & Ho & H)]; [exact Q|].
    destruct (sz <? 0) eqn:E; [injection H as <- <-; apply quiet_orc|]. apply Z.ltb_ge in E.
    cbn [w_fd set_orc] in H. destruct (w_fd w fd) as [f|] eqn:Ef; [|injection H as <- <-; apply quiet_orc].
    destruct (fd_w f) eqn:Ew; cbn [negb] in H; injection H as <- <-; [|apply quiet_orc].
    exists f, o. auto.
  Qed.

  Lemma fstat_spec fd w r w' : sys_fstat fd w = (r, w') ->
    quiet w w' /\
    match r with
    | Ret n => exists f, w_fd w fd = Some f /\ n = o_size (w_obj w (fd_obj f))
    | Err _ => True
    | _ => False
    end.
  Proof.
    unfold sys_fstat. intros H. apply ask_inv in H as [(e & -> & Q)|(a & o & Ho & H)]; [auto|].
    cbn [w_fd set_orc] in H. destruct (w_fd w fd) as [f|] eqn:Ef; injection H as <- <-; (split; [apply quiet_orc|]); [|exact I].
    exists f. auto.
  Qed.

  (** ** Accesses *)
  Lemma split_addr a k : 0 <= k -> a mod P = 0 -> (a + k) / P = a / P + k / P /\ (a + k) mod P = k mod P.
  Proof.
    intros _ Ha. pose proof (Z.div_mod a P ltac:(lia)) as D. rewrite Ha, Z.add_0_r in D.
    replace (a + k) with (k + (a / P) * P) by lia. rewrite Z.div_add, Z.mod_add by lia. lia.
  Qed.
End Kernel.
