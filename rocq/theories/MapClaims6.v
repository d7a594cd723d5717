(** The mapping properties, continued: where the bytes of a file come from. *)
From Coq Require Import Lia.
From Verif Require Import Base ErrorModel SizeModel SizeProofs OsModel MapModel MapSpec OsProofs MapProofs MapCreate MapOps OthersModel ApiModel ApiSpec OthersProofs ApiProofs MapClaims MapClaims2 MapClaims3 MapClaims5.

(** Programs that leave the cached content of all files alone, and programs
    that at most zero some of it. *)
Definition same_data (w w' : world) : Prop := forall o, o_data (w_obj w' o) = o_data (w_obj w o).
Definition keeps_data {E A} (m : ST E A) : Prop := forall w r w', m w = (r, w') -> same_data w w'.
Definition cut (w w' : world) : Prop := forall o i, o_data (w_obj w' o) i = o_data (w_obj w o) i \/ o_data (w_obj w' o) i = 0.
Definition cuts {E A} (m : ST E A) : Prop := forall w r w', m w = (r, w') -> cut w w'.

Lemma kd_sout {E A} (x : out E A) : keeps_data (sout x).
Proof. intros w r w' H o. injection H as _ <-. reflexivity. Qed.
Lemma kd_bind {E A B} (m : ST E A) (k : A -> ST E B) : keeps_data m -> (forall x, keeps_data (k x)) -> keeps_data (sbind m k).
Proof.
  intros Hm Hk w r w' H o. unfold sbind in H. destruct (m w) as [[x|e| | |] w1] eqn:E1; pose proof (Hm _ _ _ E1 o) as X;
    try (injection H as _ <-; exact X). rewrite <- X. exact (Hk x _ _ _ H o).
Qed.
Lemma kd_os {A} op (m : ST Z A) : keeps_data m -> keeps_data (os_call op m).
Proof.
  intros M w r w' H. apply os_call_inv in H. destruct r as [x|e| | |]; try exact (M _ _ _ H). destruct H as (x & H & _). exact (M _ _ _ H).
Qed.

Lemma cut_refl w : cut w w.
Proof. intros o i. auto. Qed.
Lemma cut_obj w w' : w_obj w' = w_obj w -> cut w w'.
Proof. intros E o i. rewrite E. auto. Qed.
Lemma cut_trans w1 w2 w3 : cut w1 w2 -> cut w2 w3 -> cut w1 w3.
Proof. intros A B o i. destruct (A o i) as [X|X], (B o i) as [Y|Y]; rewrite Y; auto. Qed.
Lemma cut_put w w' o s d : w_obj w' = put (w_obj w) o {| o_size := s; o_data := fun _ => 0; o_disk := d |} -> cut w w'.
Proof. intros E o' i. rewrite E. unfold put. destruct (o' =? o); auto. Qed.
Lemma cuts_sout {E A} (x : out E A) : cuts (sout x).
Proof. intros w r w' H. injection H as _ <-. apply cut_refl. Qed.
Lemma cuts_bind {E A B} (m : ST E A) (k : A -> ST E B) : cuts m -> (forall x, cuts (k x)) -> cuts (sbind m k).
Proof.
  intros Hm Hk w r w' H. unfold sbind in H. destruct (m w) as [[x|e| | |] w1] eqn:E1; pose proof (Hm _ _ _ E1) as X;
    try (injection H as _ <-; exact X). exact (cut_trans _ _ _ X (Hk x _ _ _ H)).
Qed.
Lemma cuts_os {A} op (m : ST Z A) : cuts m -> cuts (os_call op m).
Proof.
  intros M w r w' H. apply os_call_inv in H. destruct r as [x|e| | |]; try exact (M _ _ _ H). destruct H as (x & H & _). exact (M _ _ _ H).
Qed.
Lemma cuts_io {A} (m : ST io_error A) : cuts m -> cuts (io_call m).
Proof. intros M w r w' H. unfold io_call in H. destruct (m w) as [[x|e| | |] w1] eqn:E; injection H as _ <-; exact (M _ _ _ E). Qed.

Section Data.
  Variable t : target.
  Hypothesis Ht : posix_target t.
  Notation P := (t_page t).

  Lemma kd_range addr len ok f : keeps_data (on_range t addr len ok f).
  Proof.
    intros w r w' H o. unfold on_range in H. apply ask_inv in H. destruct H as [(e & -> & Q)|(x & q & Hq & H)].
    - rewrite (q_obj _ _ Q). reflexivity.
    - destruct (negb _); [injection H as _ <-; reflexivity|]. destruct (negb _); [injection H as _ <-; reflexivity|].
      destruct (fold_left _ _ _); injection H as _ <-; reflexivity.
  Qed.
  Lemma kd_msync addr len s : keeps_data (sys_msync t addr len s).
  Proof.
    intros w r w' H o. unfold sys_msync in H. apply ask_inv in H. destruct H as [(e & -> & Q)|(x & q & Hq & H)].
    - rewrite (q_obj _ _ Q). reflexivity.
    - destruct (negb _); [injection H as _ <-; reflexivity|]. destruct (negb _); [injection H as _ <-; reflexivity|].
      destruct s; injection H as _ <-; reflexivity.
  Qed.
  Lemma kd_munmap addr len : keeps_data (sys_munmap t addr len).
  Proof.
    intros w r w' H o. unfold sys_munmap in H. apply ask_inv in H. destruct H as [(e & -> & Q)|(x & q & Hq & H)].
    - rewrite (q_obj _ _ Q). reflexivity.
    - destruct (_ || _); injection H as _ <-; reflexivity.
  Qed.
  Lemma kd_whole m f : (forall p l, keeps_data (f p l)) -> keeps_data (whole t m f).
  Proof. intros F. unfold whole. apply kd_bind; [apply kd_sout|]. intros. apply F. Qed.
  Lemma kd_ranged op m off len f : (forall p l, keeps_data (f p l)) -> keeps_data (ranged t op m off len f).
  Proof.
    intros F. unfold ranged. apply kd_bind; [apply kd_sout|]. intros x. destruct (m_len m <? x); [apply kd_sout|].
    apply kd_bind; [apply kd_sout|]. intros. apply F.
  Qed.
  Lemma unit_data a m r a' : keeps_data m -> unit_call a (m (a_w a)) = (r, a') -> same_data (a_w a) (a_w a').
  Proof.
    intros K H. unfold unit_call in H. destruct (m (a_w a)) as [r1 w1] eqn:E. injection H as _ <-. exact (K _ _ _ E).
  Qed.
  Lemma convert_data m f w r w' : keeps_data f -> convert m f w = (r, w') -> same_data w w'.
  Proof.
    intros K H. apply convert_inv in H. destruct r as [x|[e x]| | |]; [exact (K _ _ _ (proj2 H))|exact (K _ _ _ (proj2 H))| | |]; exact (K _ _ _ H).
  Qed.

  Definition is_set (c : call) : bool := match c with CSet _ _ _ => true | _ => false end.
  Lemma step_same_data c a r a' : creates c = false -> foreign c = false -> is_set c = false -> step t c a = (r, a') -> same_data (a_w a) (a_w a').
  Proof.
    assert (R : same_data (a_w a) (a_w a)) by (intros o; reflexivity).
    intros N Nf Ns. destruct c; try discriminate N; try discriminate Nf; try discriminate Ns; cbn [step]; unfold with_map; try (destruct (a_live a k) as [l|]; [|intros H; injection H as _ <-; exact R]).
    - intros H. injection H as _ <-. intros o. reflexivity.
    - destruct (l_mut l); [intros H; injection H as _ <-; exact R|].
      destruct (into_map_mut t (l_map l) (a_w a)) as [[m|[e1 m]| | |] w'] eqn:E; intros H; injection H as _ <-;
        refine (convert_data _ _ _ _ _ _ E); (apply kd_bind; [apply kd_sout|intros; apply kd_os, kd_range]).
    - destruct (negb (l_mut l)); [intros H; injection H as _ <-; exact R|].
      destruct (into_map t (l_map l) (a_w a)) as [[m|[e1 m]| | |] w'] eqn:E; intros H; injection H as _ <-;
        refine (convert_data _ _ _ _ _ _ E); (apply kd_bind; [apply kd_sout|intros; apply kd_os, kd_range]).
    - unfold map_get. destruct ((0 <=? i) && (i <? m_len (l_map l))); [|intros H; injection H as _ <-; exact R].
      destruct (OsModel.load t (a_w a) _); intros H; injection H as _ <-; exact R.
    - destruct (l_mut l); [|intros H; injection H as _ <-; exact R]. apply unit_data, kd_whole. intros. apply kd_os, kd_msync.
    - destruct (l_mut l); [|intros H; injection H as _ <-; exact R]. apply unit_data, kd_ranged. intros. apply kd_os, kd_msync.
    - apply unit_data, kd_whole. intros. apply kd_os, kd_range.
    - apply unit_data, kd_ranged. intros. apply kd_os, kd_range.
    - apply unit_data, kd_whole. intros. apply kd_os, kd_range.
    - apply unit_data, kd_ranged. intros. apply kd_os, kd_range.
    - apply unit_data, kd_whole. intros. apply kd_os, kd_range.
    - apply unit_data, kd_ranged. intros. apply kd_os, kd_range.
    - destruct (drop_map t (l_map l) (a_w a)) as [r1 w1] eqn:E.
      assert (S : same_data (a_w a) w1).
      { unfold drop_map in E. destruct (0 <? m_len (l_map l)); [|injection E as _ <-; exact R].
        destruct (size_bounds _ _ _ _) as [[p n]|e| | |]; try (injection E as _ <-; exact R).
        destruct (os_unmap t p n (a_w a)) as [r2 w2] eqn:E2. pose proof (kd_os _ _ (kd_munmap p n) _ _ _ E2) as S.
        destruct r2; injection E as _ <-; exact S. }
      destruct r1; intros H; injection H as _ <-; exact S.
    - intros H. injection H as _ <-. intros o'. cbn. unfold put. destruct (Z.eqb_spec o' o) as [->|]; reflexivity.
  Qed.

  (** ** Creating calls zero at most *)
  Lemma cut_resize o sz w : cut w (resize_obj t o sz w).
  Proof.
    destruct (resize_obj_spec t o sz w) as (_ & _ & _ & _ & O & _ & D & _). intros o' i.
    destruct (Z.eq_dec o' o) as [->|N]; [|rewrite O by exact N; auto]. rewrite D. destruct (i <? _); auto.
  Qed.
  Lemma cuts_ftruncate fd sz : cuts (sys_ftruncate t fd sz).
  Proof.
    intros w r w' H. apply ftruncate_spec in H. destruct r as [x|e| | |]; try contradiction H; [|apply cut_obj, (q_obj _ _ H)].
    destruct H as (f & q & _ & _ & _ & ->). exact (cut_resize (fd_obj f) sz (set_orc w q)).
  Qed.
  Lemma cuts_resize_to fd sz : cuts (resize_to t fd sz).
  Proof.
    apply cuts_bind; [|intros; apply cuts_sout]. apply cuts_io. intros w r w' H. unfold file_set_len in H.
    destruct (2 ^ 63 - 1 <? as_u64 sz); [injection H as _ <-; apply cut_refl|].
    destruct (sys_ftruncate t fd (as_u64 sz) w) as [r1 w1] eqn:E. pose proof (cuts_ftruncate _ _ _ _ _ E) as C. destruct r1; injection H as _ <-; exact C.
  Qed.
  Lemma cuts_fstat fd : cuts (io_call (file_len fd)).
  Proof.
    apply cuts_io. intros w r w' H. unfold file_len in H. destruct (sys_fstat fd w) as [r1 w1] eqn:E. apply fstat_spec in E as [Q _].
    pose proof (cut_obj _ _ (q_obj _ _ Q)) as C. destruct r1; injection H as _ <-; exact C.
  Qed.
  Lemma cuts_mmap addr len pr shared anon fd off : cuts (sys_mmap t false addr len pr shared anon fd off).
  Proof.
    intros w r w' H. pose proof (mmap_spec t _ _ _ _ _ _ _ _ _ _ H) as M. destruct r as [x|e| | |]; try contradiction M; [|apply cut_obj, (q_obj _ _ M)].
    destruct M as (_ & _ & M). destruct anon; [destruct M as (_ & _ & M); exact (cut_put _ _ _ _ _ M)|].
    destruct M as (f & _ & _ & _ & _ & M). exact (cut_obj _ _ M).
  Qed.
  Lemma cuts_map_if o fd : cuts (map_if t o fd).
  Proof.
    apply cuts_bind; [apply cuts_bind; [apply cuts_fstat|intros; apply cuts_sout]|]. intros l.
    apply cuts_bind; [destruct (op_truncate o && (0 <? l)); [apply cuts_resize_to|apply cuts_sout]|]. intros l1.
    apply cuts_bind.
    { destruct (op_resize o) as [|n|n|n]; try apply cuts_sout; try apply cuts_resize_to.
      - destruct (l1 <? n); [apply cuts_resize_to|apply cuts_sout].
      - destruct (n <? l1); [apply cuts_resize_to|apply cuts_sout]. }
    intros l2. destruct (l2 <? op_offset o); [apply cuts_sout|]. apply cuts_bind; [apply cuts_sout|]. intros mx.
    destruct (extent_len _ _); [|apply cuts_sout]. do 3 (apply cuts_bind; [apply cuts_sout|]; intros).
    apply cuts_bind; [|intros; apply cuts_sout]. unfold os_map_file. destruct (op_protect o); apply cuts_os, cuts_mmap.
  Qed.
  Lemma cuts_alloc o : cuts (alloc t o).
  Proof.
    apply cuts_bind; [apply cuts_sout|]. intros off. apply cuts_bind; [destruct (op_len o); apply cuts_sout|]. intros len.
    apply cuts_bind; [apply cuts_sout|]. intros total. apply cuts_bind; [|intros; apply cuts_sout].
    unfold os_map_anon. destruct (op_protect o); apply cuts_os, cuts_mmap.
  Qed.
  Lemma cuts_open path wr creat excl trunc : cuts (sys_open t path wr creat excl trunc).
  Proof.
    intros w r w' H. unfold sys_open in H. apply ask_inv in H as [(e & -> & Q)|(a & q & Hq & H)]; [apply cut_obj, (q_obj _ _ Q)|].
    destruct (negb _); [injection H as _ <-; apply cut_obj; reflexivity|]. cbn [w_fs set_orc] in H. destruct (w_fs w path) as [o|].
    - destruct (creat && excl); [injection H as _ <-; apply cut_obj; reflexivity|]. injection H as _ <-.
      destruct (trunc && _); [exact (cut_resize o 0 (set_orc w q))|apply cut_obj; reflexivity].
    - destruct (negb creat); [injection H as _ <-; apply cut_obj; reflexivity|]. injection H as _ <-.
      apply (cut_put w _ (w_next w) 0 (fun _ => 0)). reflexivity.
  Qed.
  Lemma cuts_open_if o path : cuts (open_if t o path).
  Proof.
    apply cuts_bind.
    - apply cuts_io. intros w r w' H. unfold file_open in H. destruct (_ && _); [injection H as _ <-; apply cut_refl|].
      destruct (sys_open _ _ _ _ _ _ w) as [r1 w1] eqn:E. pose proof (cuts_open _ _ _ _ _ _ _ _ E) as C. destruct r1; injection H as _ <-; exact C.
    - intros fd. apply cuts_bind; [|intros; apply cuts_sout]. intros w r w' H. unfold closing in H.
      destruct (map_if t o fd w) as [r1 w1] eqn:E. pose proof (cuts_map_if _ _ _ _ _ E) as C. destruct r1; injection H as _ <-; exact C.
  Qed.
  Lemma step_cut c a r a' : creates c = true -> step t c a = (r, a') -> cut (a_w a) (a_w a').
  Proof.
    intros N H. destruct c; try discriminate N; cbn [step] in H.
    - destruct (open_if t o path (a_w a)) as [r1 w1] eqn:E. pose proof (cuts_open_if _ _ _ _ _ E) as C.
      destruct r1 as [[[m|] fd]|e| | |]; injection H as _ <-; exact C.
    - destruct (map_if t o fd (a_w a)) as [r1 w1] eqn:E. pose proof (cuts_map_if _ _ _ _ _ E) as C.
      destruct r1 as [[m|]|e| | |]; injection H as _ <-; exact C.
    - destruct (alloc t o (a_w a)) as [r1 w1] eqn:E. pose proof (cuts_alloc _ _ _ _ E) as C.
      destruct r1 as [m|e| | |]; injection H as _ <-; exact C.
  Qed.

  (** ** Stores *)
  Lemma set_data k j b a r a' o i : api_ok t a -> step t (CSet k j b) a = (r, a') ->
    o_data (w_obj (a_w a') o) i = o_data (w_obj (a_w a) o) i \/
    exists l, a_live a k = Some l /\ l_mut l = true /\ l_shared l = true /\ 0 <= j < m_len (l_map l) /\
      l_obj l = o /\ l_off l + j = i /\ r = Ret SNone /\ o_data (w_obj (a_w a') o) i = b.
  Proof.
    intros OK H. pose proof H as H0. cbn [step] in H. unfold with_map in H. destruct (a_live a k) as [l|] eqn:Hl; [|injection H as _ <-; auto].
    destruct (l_mut l) eqn:Hm; [|injection H as _ <-; auto].
    destruct (step_set t _ _ _ _ _ _ _ Hl Hm H0) as (_ & r1 & E & R & _). clear H H0.
    pose proof (ok_live _ _ OK k l Hl) as B. unfold map_set in E.
    destruct ((0 <=? j) && (j <? m_len (l_map l))) eqn:Bj; [|injection E as _ <-; auto].
    apply andb_prop in Bj as [B1 B2]. apply Z.leb_le in B1. apply Z.ltb_lt in B2.
    destruct (byte_page t Ht _ _ _ _ _ _ B j ltac:(lia)) as (Ep & _). rewrite Ep in E.
    destruct (byte_entry t Ht _ _ _ _ _ _ B j ltac:(lia)) as (e & Ev & Eo & Ei & _ & Es & _).
    unfold OsModel.store in E. rewrite Ev in E. destruct (negb (p_w e)); [injection E as _ <-; auto|]. cbv zeta in E.
    destruct (o_size _ <=? _); [injection E as _ <-; auto|]. destruct (p_shared e) eqn:Esh; injection E as <- <-; [|auto].
    rewrite Eo in *. destruct (_ <? _); [|auto]. cbn [w_obj set_obj]. unfold put. destruct (Z.eqb_spec o (l_obj l)) as [->|]; [|auto].
    cbn [o_data]. unfold upd. destruct (Z.eqb_spec i (P * p_idx e + (m_ptr (l_map l) + j) mod P)) as [->|]; [|auto].
    right. exists l. rewrite Ei. repeat split; auto; try lia; try congruence. apply R. reflexivity.
  Qed.

  (** Other processes write bytes of theirs, or zero some. *)
  Lemma others_data e w o i :
    o_data (w_obj (others t e w) o) i = o_data (w_obj w o) i \/
    (resizes (COther e) = true /\ o_data (w_obj (others t e w) o) i = 0) \/
    exists path off d sync, e = OWrite path off d sync /\ w_fs w path = Some o /\ off <= i < off + zlen d /\
      nth (Z.to_nat (i - off)) d 0 = o_data (w_obj (others t e w) o) i.
  Proof.
    destruct e as [path|path|from to|path sz|path sz|path off d sync]; cbn [others resizes]; unfold at_name; auto.
    - destruct (w_fs w path); [auto|]. cbn. unfold put. destruct (o =? w_next w); cbn; auto.
    - destruct (w_fs w from); cbn; auto.
    - destruct (w_fs w path) as [o'|]; [|auto]. destruct (_ <? _); [|auto]. destruct (cut_resize o' sz w o i) as [E|E]; auto.
    - destruct (w_fs w path) as [o'|]; [|auto]. destruct (_ <? _); [|auto]. destruct (cut_resize o' sz w o i) as [E|E]; auto.
    - destruct (w_fs w path) as [o'|] eqn:Ef; [|auto]. unfold write_obj. cbn. unfold put. destruct (Z.eqb_spec o o') as [->|]; [|auto]. cbn.
      unfold splice. destruct ((off <=? i) && (i <? off + zlen d) && (i <? o_size (w_obj w o'))) eqn:B; [|auto]. right. right.
      apply andb_prop in B as [B _]. apply andb_prop in B as [B1 B2]. apply Z.leb_le in B1. apply Z.ltb_lt in B2.
      exists path, off, d, sync. auto.
  Qed.

  Lemma step_data c a r a' o i : api_ok t a -> step t c a = (r, a') ->
    o_data (w_obj (a_w a') o) i = o_data (w_obj (a_w a) o) i \/
    (resizes c = true /\ o_data (w_obj (a_w a') o) i = 0) \/
    (exists path off d sync, c = COther (OWrite path off d sync) /\ w_fs (a_w a) path = Some o /\ off <= i < off + zlen d /\
      nth (Z.to_nat (i - off)) d 0 = o_data (w_obj (a_w a') o) i) \/
    exists k l j b, c = CSet k j b /\ a_live a k = Some l /\ l_mut l = true /\ l_shared l = true /\ 0 <= j < m_len (l_map l) /\
      l_obj l = o /\ l_off l + j = i /\ r = Ret SNone /\ o_data (w_obj (a_w a') o) i = b.
  Proof.
    intros OK H. destruct (creates c) eqn:N.
    - assert (Rz : resizes c = true) by (destruct c; try discriminate N; reflexivity). destruct (step_cut _ _ _ _ N H o i); auto.
    - destruct (foreign c) eqn:Nf.
      { destruct c; try discriminate Nf. cbn [step] in H. injection H as _ <-. cbn [a_w set_w].
        destruct (others_data e (a_w a) o i) as [X|[X|(path & off & d & sync & -> & X)]]; auto. right. right. left. exists path, off, d, sync. auto. }
      destruct (is_set c) eqn:Ns; [|left; rewrite (step_same_data _ _ _ _ N Nf Ns H o); reflexivity].
      destruct c as [| | | | | | |k j b| | | | | | | | | | |]; try discriminate Ns. destruct (set_data _ _ _ _ _ _ o i OK H) as [X|(l & X)]; [auto|]. right. right. right. exists k, l, j, b. tauto.
  Qed.

  Lemma history_data h o i : forall a a', api_ok t a -> Forall (call_ok t) h -> In a' (states t h a) ->
    o_data (w_obj (a_w a') o) i = o_data (w_obj (a_w a) o) i \/
    (Exists (fun c => resizes c = true) h /\ o_data (w_obj (a_w a') o) i = 0) \/
    stored_at t o i (o_data (w_obj (a_w a') o) i) h a.
  Proof.
    induction h as [|c h IH]; intros a a' OK F I; cbn [states] in I.
    - destruct I as [->|[]]. auto.
    - destruct I as [->|I]; [auto|]. inversion F as [|c' h' Fc Fh]. subst c' h'.
      pose proof (step_ok t Ht c a OK Fc) as OK1.
      destruct (IH _ _ OK1 Fh I) as [X|[[X Y]|X]]; [|right; left; auto|right; right; apply sa_later; exact X].
      destruct (step t c a) as [r a1] eqn:E. cbn [snd] in *.
      destruct (step_data _ _ _ _ o i OK E) as [Y|[[N Y]|[(path & off & d & sync & -> & Hf & Hi & Y)|(k & l & j & b & -> & Hl & Hm & Hs & Hj & Ho & Hi & -> & Y)]]].
      + left. congruence.
      + right. left. split; [apply Exists_cons_hd, N|congruence].
      + right. right. rewrite X. eapply sa_other; eassumption.
      + right. right. rewrite X, Y. eapply sa_here; try eassumption. rewrite E. reflexivity.
  Qed.

  (** ** Histories that shorten no file *)
  Lemma map_if_keeps o fd w r w' ob i : wf w -> words t w -> options_ok t o -> no_shrink o -> map_if t o fd w = (r, w') ->
    i < o_size (w_obj w ob) -> o_data (w_obj w' ob) i = o_data (w_obj w ob) i.
  Proof.
    intros W Wd O (T & _ & R) H Hi.
    pose proof (map_if_spec t Ht _ _ _ _ _ W O H) as M.
    destruct (w_fd w fd) as [f|] eqn:Hf; [|destruct M as (e & _ & _ & Q); rewrite (q_obj _ _ Q); reflexivity]. clear M.
    destruct O as (Or & Ol & Oo).
    rewrite (map_if_stages t) in H.
    assert (K : forall r1 w1, file_stage t o fd w = (r1, w1) -> o_data (w_obj w1 ob) i = o_data (w_obj w ob) i).
    { intros r1 w1 E. unfold file_stage, sbind, io_call, file_len in E. destruct (sys_fstat fd w) as [r2 w2] eqn:E2. apply fstat_spec in E2 as [Q C].
      destruct r2 as [n|e| | |]; try contradiction C; unfold sret in E; [|injection E as _ <-; rewrite (q_obj _ _ Q); reflexivity].
      destruct C as (f' & Ef & ->). rewrite Hf in Ef. injection Ef as <-. rewrite T in E. cbn [andb] in E.
      unfold as_usize in E. rewrite (Z.mod_small _ _ (Wd (fd_obj f))) in E.
      destruct R as [Rn|[n Rn]]; [rewrite Rn in E; injection E as _ <-; rewrite (q_obj _ _ Q); reflexivity|]. rewrite Rn in *. cbn in Or.
      destruct (Z.ltb_spec (o_size (w_obj w (fd_obj f))) n) as [Lt|]; [|injection E as _ <-; rewrite (q_obj _ _ Q); reflexivity].
      apply (resize_to_spec t Ht _ _ _ _ _ Or) in E. destruct r1 as [x|e| | |]; try contradiction E.
      - destruct E as (_ & f' & q & Ef & _ & ->). rewrite (q_fd _ _ Q), Hf in Ef. injection Ef as <-.
        destruct (resize_obj_spec t (fd_obj f) n (set_orc w2 q)) as (_ & _ & _ & _ & Ob & _ & D & _).
        destruct (Z.eq_dec ob (fd_obj f)) as [->|N]; [|rewrite Ob by exact N; cbn [w_obj set_orc]; rewrite (q_obj _ _ Q); reflexivity].
        rewrite D. cbn [w_obj set_orc]. rewrite (q_obj _ _ Q). destruct (Z.ltb_spec i (Z.min (o_size (w_obj w (fd_obj f))) n)); [reflexivity|lia].
      - destruct E as [_ Q2]. rewrite (q_obj _ _ Q2), (q_obj _ _ Q). reflexivity. }
    apply sbind_ret in H as [(L & w1 & E & H)|H].
    - rewrite <- (K _ _ E). assert (D : w_obj w' = w_obj w1); [|rewrite D; reflexivity].
      unfold map_stage in H. destruct (L <? op_offset o); [injection H as _ <-; reflexivity|]. cbv zeta in H. unfold sbind, sout in H.
      destruct (usub t L (op_offset o)) as [mx|x| | |]; try (injection H as _ <-; reflexivity).
      destruct (extent_len (op_len o) mx) as [len|]; [|injection H as _ <-; reflexivity].
      destruct (size_truncate t _ _) as [mo|x| | |]; try (injection H as _ <-; reflexivity).
      destruct (usub t (op_offset o) mo) as [d|x| | |]; try (injection H as _ <-; reflexivity).
      destruct (uadd t len d) as [ml|x| | |]; try (injection H as _ <-; reflexivity).
      destruct (os_map_file t fd mo ml (op_protect o) w1) as [r2 w2] eqn:E2.
      assert (S : w_obj w2 = w_obj w1).
      { unfold os_map_file in E2. destruct (op_protect o); apply os_call_inv in E2;
          (destruct r2 as [x|x| | |]; [|destruct E2 as (y & E2 & _)| | |]; pose proof (mmap_spec t _ _ _ _ _ _ _ _ _ _ E2) as M; try contradiction M;
           [destruct M as (_ & _ & f' & _ & _ & _ & _ & M); exact M|exact (q_obj _ _ M)]). }
      destruct r2; injection H as _ <-; exact S.
    - destruct H as [(e & E & ->)|[(E & ->)|[(E & ->)|(E & ->)]]]; exact (K _ _ E).
  Qed.

  Lemma step_keeps_data c a r a' o i : whole_life t a -> call_ok t c -> keeps_length t c -> creates c = true -> step t c a = (r, a') ->
    o < w_next (a_w a) -> i < o_size (w_obj (a_w a) o) -> o_data (w_obj (a_w a') o) i = o_data (w_obj (a_w a) o) i.
  Proof.
    intros [OK Wd _] Ck Kl N H Ho Hi. pose proof (ok_wf _ _ OK) as W. destruct c; try discriminate N; cbn [step call_ok keeps_length] in *.
    - destruct (open_if t o0 path (a_w a)) as [r1 w1] eqn:E.
      assert (D : o_data (w_obj w1 o) i = o_data (w_obj (a_w a) o) i).
      { unfold open_if, sbind, io_call in E. destruct (file_open t (op_open o0) path (a_w a)) as [r2 w2] eqn:Eo.
        destruct (file_open_grows t Ht _ _ _ _ _ W Wd Kl Eo) as (W2 & Wd2 & G2).
        assert (D2 : o_data (w_obj w2 o) i = o_data (w_obj (a_w a) o) i).
        { pose proof (file_open_spec t _ _ _ _ _ Eo) as M. destruct r2 as [fd|e| | |]; try contradiction M; [|rewrite (q_obj _ _ M); reflexivity].
          destruct M as [_ So]. pose proof (open_spec t _ _ _ _ _ _ _ _ W So) as (_ & _ & ob & _ & _ & _ & Old).
          destruct Kl as (_ & T & _). rewrite T in Old. cbn [andb] in Old. destruct (w_fs (a_w a) path) as [o'|].
          - destruct Old as (_ & _ & w3 & Tc & -> & _ & _ & Sz & D). destruct (Z.eq_dec o o') as [->|No]; [apply D; lia|].
            rewrite (tc_obj _ _ _ Tc o No). reflexivity.
          - destruct Old as (_ & -> & _ & _ & ->). rewrite put_other by lia. reflexivity. }
        destruct r2 as [fd|e| | |]; try (injection E as _ <-; exact D2).
        unfold closing in E. destruct (map_if t o0 fd w2) as [r3 w3] eqn:Em. rewrite <- D2.
        pose proof (map_if_keeps _ _ _ _ _ o i W2 Wd2 Ck Kl Em ltac:(destruct G2 as [_ G]; specialize (G o Ho); lia)) as D3.
        destruct r3; injection E as _ <-; exact D3. }
      destruct r1 as [[[m|] fd]|e| | |]; injection H as _ <-; exact D.
    - destruct (map_if t o0 fd (a_w a)) as [r1 w1] eqn:E. pose proof (map_if_keeps _ _ _ _ _ o i W Wd Ck Kl E Hi) as D.
      destruct r1 as [[m|]|e| | |]; injection H as _ <-; exact D.
    - destruct (alloc t o0 (a_w a)) as [r1 w1] eqn:E. destruct Ck as [Ck Fit].
      pose proof (alloc_spec t Ht _ _ _ _ W Ck Fit E) as M.
      assert (D : o_data (w_obj w1 o) i = o_data (w_obj (a_w a) o) i).
      { destruct r1 as [m|e| | |]; try contradiction M.
        - destruct M as (_ & _ & _ & C & Nx & _ & _ & Ob & Sz). rewrite Ob, put_other by lia. reflexivity.
        - destruct M as [_ Q]. rewrite (q_obj _ _ Q). reflexivity.
        - destruct M as [_ ->]. reflexivity. }
      destruct r1 as [m|e| | |]; injection H as _ <-; exact D.
  Qed.

  Lemma step_grows c a : whole_life t a -> call_ok t c -> keeps_length t c -> grows (a_w a) (a_w (snd (step t c a))).
  Proof.
    intros [OK Wd Fi] Ck Kl. destruct (step t c a) as [r a'] eqn:E. cbn [snd] in *.
    pose proof (ok_wf _ _ OK) as W. destruct (creates c) eqn:N.
    - destruct c; try discriminate N; cbn [step call_ok keeps_length] in *.
      + destruct (open_if t o path (a_w a)) as [r1 w'] eqn:E1. pose proof (open_if_grows t Ht _ _ _ _ _ W Wd Ck Kl E1) as [_ G].
        destruct r1 as [[[m|] fd]|e| | |]; injection E as _ <-; exact G.
      + destruct (map_if t o fd (a_w a)) as [r1 w'] eqn:E1. pose proof (map_if_grows t Ht _ _ _ _ _ W Wd Ck Kl E1) as [_ G].
        destruct r1 as [[m|]|e| | |]; injection E as _ <-; exact G.
      + destruct (alloc t o (a_w a)) as [r1 w'] eqn:E1. pose proof (alloc_grows t Ht _ _ _ _ W Wd (proj1 Ck) (proj2 Ck) E1) as [_ G].
        destruct r1 as [m|e| | |]; injection E as _ <-; exact G.
    - destruct (foreign c) eqn:Nf.
      { destruct c; try discriminate Nf. cbn [step] in E. injection E as _ <-. apply (others_grows t Ht e (a_w a) W Wd Ck Kl). }
      pose proof (step_sizes t _ _ _ _ N Nf E) as S. split; [|intros o _; rewrite S; lia].
      destruct (step_kinds t Ht _ _ _ _ OK Ck E) as [X|l S0 X|k l l' S0 L X|k l S0 L A Nc [Q|(SF & _)]|oe S0 V].
      + exact (ex_next _ _ X).
      + exact (ex_next _ _ X).
      + rewrite (wi_next _ _ _ _ X). lia.
      + rewrite (q_next _ _ Q). lia.
      + rewrite (sf_next _ _ SF). lia.
      + exact (iv_next _ _ V).
  Qed.

  Lemma others_keep e w o i : other_ok e -> keeps_length t (COther e) -> o < w_next w -> i < o_size (w_obj w o) -> resizes (COther e) = true ->
    o_data (w_obj (others t e w) o) i = o_data (w_obj w o) i.
  Proof.
    intros He Kl Ho Hi R. destruct e as [path|path|from to|path sz|path sz|path off d sync]; cbn [others keeps_length] in *; unfold at_name; try discriminate R; try contradiction Kl.
    - destruct (w_fs w path); [reflexivity|]. cbn. rewrite put_other by lia. reflexivity.
    - destruct (w_fs w path) as [o'|]; [|reflexivity]. destruct (Z.ltb_spec (o_size (w_obj w o')) sz) as [Lt|]; [|reflexivity].
      destruct (resize_obj_spec t o' sz w) as (_ & _ & _ & _ & Ob & _ & D & _). cbv zeta in *.
      destruct (Z.eq_dec o o') as [->|No]; [|rewrite (Ob _ No); reflexivity]. rewrite D. destruct (Z.ltb_spec i (Z.min (o_size (w_obj w o')) sz)); [reflexivity|lia].
  Qed.

  Lemma history_data_kept h o i : forall a a', whole_life t a -> Forall (call_ok t) h -> Forall (keeps_length t) h ->
    o < w_next (a_w a) -> i < o_size (w_obj (a_w a) o) -> In a' (states t h a) ->
    o_data (w_obj (a_w a') o) i = o_data (w_obj (a_w a) o) i \/ stored_at t o i (o_data (w_obj (a_w a') o) i) h a.
  Proof.
    induction h as [|c h IH]; intros a a' L F K Ho Hi I; cbn [states] in I.
    - destruct I as [->|[]]. auto.
    - destruct I as [->|I]; [auto|]. inversion F as [|c' h' Fc Fh]. subst c' h'. inversion K as [|c' h' Kc Kh]. subst c' h'.
      pose proof (wl_ok _ _ L) as OK. pose proof (life_step t Ht c a L Fc Kc) as L1. pose proof (step_grows c a L Fc Kc) as [G1 G2].
      specialize (G2 o Ho). destruct (IH _ _ L1 Fh Kh ltac:(lia) ltac:(lia) I) as [X|X]; [|right; apply sa_later; exact X].
      destruct (step t c a) as [r a1] eqn:E. cbn [snd] in *.
      destruct (step_data _ _ _ _ o i OK E) as [Y|[[N Y]|[(path & off & d & sync & -> & Hf & Hi' & Y)|(k & l & j & b & -> & Hl & Hm & Hs & Hj & Ho' & Hi' & -> & Y)]]].
      + left. congruence.
      + left. rewrite X. destruct (creates c) eqn:Cr; [exact (step_keeps_data _ _ _ _ _ _ L Fc Kc Cr E Ho Hi)|].
        destruct c; try discriminate Cr; try discriminate N. cbn [step] in E. injection E as _ <-. exact (others_keep e (a_w a) o i Fc Kc Ho Hi N).
      + right. rewrite X. eapply sa_other; eassumption.
      + right. rewrite X, Y. eapply sa_here; try eassumption. rewrite E. reflexivity.
  Qed.

  (** ** C18 *)
  Lemma durable_values a k l c off len a1 r h i : api_ok t a -> a_live a k = Some l -> l_mut l = true -> l_shared l = true -> call_ok t c ->
    sync_call (m_len (l_map l)) c = Some (k, off, len) -> step t c a = (Ret r, a1) -> 0 <= i -> off <= i < off + len ->
    Forall (call_ok t) h ->
    let v := o_disk (w_obj (a_w (run t h a1)) (l_obj l)) (l_off l + i) in
    v = o_data (w_obj (a_w a) (l_obj l)) (l_off l + i) \/ stored_at t (l_obj l) (l_off l + i) v h a1 \/
    (v = 0 /\ Exists (fun c => resizes c = true) h).
  Proof.
    intros OK Hl Hm Hs Ck S H H0 Hi F. cbv zeta.
    destruct (durable_lemma t Ht _ _ _ _ _ _ _ _ _ _ OK Hl Hm Hs Ck S H H0 Hi F) as (a' & I & ->).
    destruct (sync_disk t Ht _ _ _ _ _ _ _ _ OK Hl Hm Hs Ck S H) as (_ & _ & D). rewrite <- D.
    pose proof (step_ok t Ht c a OK Ck) as OK1. rewrite H in OK1. cbn [snd] in OK1.
    destruct (history_data h (l_obj l) (l_off l + i) a1 a' OK1 F I) as [X|[[X Y]|X]]; auto.
  Qed.
  Lemma durable_kept a k l c off len a1 r h i : whole_life t a -> a_live a k = Some l -> l_mut l = true -> l_shared l = true -> call_ok t c ->
    sync_call (m_len (l_map l)) c = Some (k, off, len) -> step t c a = (Ret r, a1) -> 0 <= i -> off <= i < off + len ->
    Forall (call_ok t) h -> Forall (keeps_length t) h ->
    let v := o_disk (w_obj (a_w (run t h a1)) (l_obj l)) (l_off l + i) in
    v = o_data (w_obj (a_w a) (l_obj l)) (l_off l + i) \/ stored_at t (l_obj l) (l_off l + i) v h a1.
  Proof.
    intros L Hl Hm Hs Ck S H H0 Hi F K. cbv zeta. pose proof (wl_ok _ _ L) as OK.
    destruct (durable_lemma t Ht _ _ _ _ _ _ _ _ _ _ OK Hl Hm Hs Ck S H H0 Hi F) as (a' & I & ->).
    destruct (sync_disk t Ht _ _ _ _ _ _ _ _ OK Hl Hm Hs Ck S H) as (La & _ & D). rewrite <- D.
    assert (Kc : keeps_length t c) by (destruct c; try discriminate S; exact Logic.I).
    assert (Le : i < m_len (l_map l)).
    { destruct (step_kinds t Ht _ _ _ _ OK Ck H) as [X|l0 S0|k0 l0 l' S0 L0 Wi|k0 l0 E0|oe S0]; destruct c as [| | | | | | | |k' [|]|k' off' len' [|]| | | | | | | | |]; try discriminate S; injection S as -> <- <-; try lia;
      (cbn [step] in H; unfold with_map in H; rewrite Hl, Hm in H; unfold flush_range in H; destruct Ck as (U1 & U2 & Fit);
       pose proof (ranged_cases t Ht _ _ _ _ _ _ OpFlush off' len' (fun p n => os_flush t p n FlushSync) (a_w a) (ok_live _ _ OK k l Hl) U1 U2 Fit) as R;
       destruct (Z.leb_spec (off' + len') (m_len (l_map l))) as [Le|Gt]; [lia|];
       destruct (off' + len' <? 2 ^ t_bits t); rewrite R in H; discriminate H). }
    pose proof (life_step t Ht c a L Ck Kc) as L1. pose proof (step_grows c a L Ck Kc) as [G1 G2]. rewrite H in *. cbn [snd] in *.
    pose proof (live_old t Ht a k l OK Hl) as Lo. pose proof (wl_fits _ _ L k l Hl). specialize (G2 _ Lo).
    apply (history_data_kept h (l_obj l) (l_off l + i) a1 a' L1 F K); try assumption; lia.
  Qed.
End Data.
