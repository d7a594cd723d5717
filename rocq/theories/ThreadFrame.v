(** What no step of another thread or process can do to the memory of a ring
    that is being allocated: its object has one descriptor, which only the
    allocating thread uses, and no file name. *)
From Coq Require Import Lia.
From Verif Require Import Base ErrorModel SizeModel OsModel MapModel MapSpec OsProofs MapProofs MapCreate OthersModel ApiModel ApiSpec OthersProofs
  RingMapModel RingMapSpec MirrorProofs ProcFrame ThreadModel.

(** [o] is reached through descriptor [x] only. *)
Record hid (x : Z) (w : world) (o : Z) : Prop := {
  hd_old : o < w_next w;
  hd_own : w_fd w x = Some {| fd_obj := o; fd_w := true |};
  hd_fd : forall fd f, fd <> x -> w_fd w fd = Some f -> fd_obj f <> o;
  hd_fs : forall path, 0 <= path -> w_fs w path <> Some o
}.

Record hsafe' (x o : Z) (w w' : world) : Prop := {
  hs_hid : hid x w' o;
  hs_size : o_size (w_obj w' o) = o_size (w_obj w o);
  hs_data : forall i, o_data (w_obj w' o) i = o_data (w_obj w o) i;
  hs_vm : forall p e', w_vm w' p = Some e' -> p_obj e' = o -> exists e, w_vm w p = Some e /\ p_obj e = o
}.
Definition hsafe (x o : Z) (w w' : world) : Prop := hid x w o -> hsafe' x o w w'.
Definition hsafely {E A} (x o : Z) (m : ST E A) : Prop := forall w, hsafe x o w (snd (m w)).

Section Hidden.
  Variable t : target.
  Variables x o : Z.
  Hypothesis Hx0 : 0 <= x.

  Lemma hsafe_refl w : hsafe x o w w.
  Proof. intros H. split; eauto. Qed.
  Lemma hsafe_trans w1 w2 w3 : hsafe x o w1 w2 -> hsafe x o w2 w3 -> hsafe x o w1 w3.
  Proof.
    intros H1 H2 H. destruct (H1 H) as [P1 S1 D1 V1]. destruct (H2 P1) as [P2 S2 D2 V2]. split.
    - exact P2.
    - congruence.
    - intros i. rewrite D2. apply D1.
    - intros p e' He Ho. destruct (V2 p e' He Ho) as (e & He1 & Ho1). exact (V1 p e He1 Ho1).
  Qed.
  Lemma hsafe_quiet w w' : quiet w w' -> hsafe x o w w'.
  Proof.
    intros [V O N F S] [P1 P0 P2 P3]. split.
    - split; [rewrite N; exact P1|rewrite F; exact P0|rewrite F; exact P2|rewrite S; exact P3].
    - rewrite O. reflexivity.
    - rewrite O. reflexivity.
    - rewrite V. eauto.
  Qed.

  Lemma hsafely_ret {E A} (a : A) : hsafely x o (sret (E:=E) a).
  Proof. intros w. apply hsafe_refl. Qed.
  Lemma hsafely_out {E A} (y : out E A) : hsafely x o (sout y).
  Proof. intros w. apply hsafe_refl. Qed.
  Lemma hsafely_bind {E A B} (m : ST E A) (k : A -> ST E B) : hsafely x o m -> (forall a, hsafely x o (k a)) -> hsafely x o (sbind m k).
  Proof.
    intros H K w. unfold sbind. specialize (H w). destruct (m w) as [[a|e| | |] w1]; cbn in *; try exact H.
    exact (hsafe_trans _ _ _ H (K a w1)).
  Qed.
  Lemma hsafely_os {A} op (m : ST Z A) : hsafely x o m -> hsafely x o (os_call op m).
  Proof. intros H w. unfold os_call. specialize (H w). destruct (m w) as [[a|e| | |] w1]; exact H. Qed.
  Lemma hsafely_io {A} (m : ST io_error A) : hsafely x o m -> hsafely x o (io_call m).
  Proof. intros H w. unfold io_call. specialize (H w). destruct (m w) as [[a|e| | |] w1]; exact H. Qed.
  Lemma hsafely_ask {A} (k : Z -> ST Z A) : (forall a, hsafely x o (k a)) -> hsafely x o (ask k).
  Proof.
    intros H w. unfold ask. destruct (w_orc w) as [|[e|a] q]; cbn.
    - apply hsafe_refl.
    - apply hsafe_quiet. split; reflexivity.
    - apply (hsafe_trans _ (set_orc w q)); [apply hsafe_quiet; split; reflexivity|apply H].
  Qed.

  Lemma hsafe_vm w f : (forall p e', f p = Some e' -> p_obj e' = o -> exists e, w_vm w p = Some e /\ p_obj e = o) -> hsafe x o w (set_vm w f).
  Proof. intros H [P1 P0 P2 P3]. split; cbn; auto. split; assumption. Qed.

  Lemma hsafely_mmap fixed addr len pr shared anon fd off : anon = true \/ fd <> x ->
    hsafely x o (sys_mmap t fixed addr len pr shared anon fd off).
  Proof.
    intros Hx. apply hsafely_ask. intros a w. destruct (len <=? 0); [apply hsafe_refl|]. destruct (_ || _); [apply hsafe_refl|]. cbv zeta.
    destruct (negb (range_ok _ _ _)); [apply hsafe_refl|]. destruct (negb fixed && _); [apply hsafe_refl|].
    unfold backing. destruct anon; cbn.
    - intros [P1 P0 P2 P3]. split; cbn.
      + split; cbn; [lia|exact P0|exact P2|exact P3].
      + rewrite put_other by lia. reflexivity.
      + rewrite put_other by lia. reflexivity.
      + intros p e'. destruct (in_pages _ _ p); [|eauto]. intros [= <-]. cbn. lia.
    - destruct Hx as [Hx|Hx]; [discriminate Hx|].
      destruct (w_fd w fd) as [f|] eqn:Ef; cbn; [|apply hsafe_refl]. destruct (shared && pr_w pr && negb (fd_w f)); cbn; [apply hsafe_refl|].
      intros [P1 P0 P2 P3]. split; cbn; auto; [split; assumption|].
      intros p e'. destruct (in_pages _ _ p); [|eauto]. intros [= <-]. cbn. intros Eo. destruct (P2 _ _ Hx Ef Eo).
  Qed.
  Lemma hsafely_munmap addr len : hsafely x o (sys_munmap t addr len).
  Proof.
    apply hsafely_ask. intros a w. destruct (_ || _); [apply hsafe_refl|]. apply hsafe_vm. intros p e'.
    destruct (in_pages _ _ p); [discriminate|eauto].
  Qed.
  Lemma hsafely_on_range addr len ok f : (forall e, p_obj (f e) = p_obj e) -> hsafely x o (on_range t addr len ok f).
  Proof.
    intros K. apply hsafely_ask. intros a w. destruct (negb _); [apply hsafe_refl|]. cbv zeta. destruct (negb _); [apply hsafe_refl|].
    destruct (fold_left _ _ _); try apply hsafe_refl. apply hsafe_vm. intros p e'. destruct (in_pages _ _ p); [|eauto].
    destruct (w_vm w p) as [e|]; cbn; [|discriminate]. intros [= <-] Ho. exists e. rewrite K in Ho. auto.
  Qed.
  Lemma hsafe_objs w f : o_size (f o) = o_size (w_obj w o) -> (forall i, o_data (f o) i = o_data (w_obj w o) i) -> hsafe x o w (set_obj w f).
  Proof. intros H1 H2 [P1 P0 P2 P3]. split; cbn; eauto. split; assumption. Qed.
  Lemma hsafely_msync addr len sync : hsafely x o (sys_msync t addr len sync).
  Proof.
    apply hsafely_ask. intros a w. destruct (negb _); [apply hsafe_refl|]. cbv zeta. destruct (negb _); [apply hsafe_refl|].
    destruct sync; [|apply hsafe_refl]. apply hsafe_objs; reflexivity.
  Qed.
  Lemma hsafe_writeback o' pg w : hsafe x o w (writeback t o' pg w).
  Proof. apply hsafe_objs; unfold put; destruct (Z.eqb_spec o o') as [->|]; reflexivity. Qed.
  Lemma hsafe_resize o' sz w : o' <> o -> hsafe x o w (resize_obj t o' sz w).
  Proof.
    intros N [P1 P0 P2 P3]. unfold resize_obj. split; cbn.
    - split; assumption.
    - rewrite put_other by auto. reflexivity.
    - rewrite put_other by auto. reflexivity.
    - intros p e'. destruct (w_vm w p) as [e|]; [|discriminate]. intros He Ho. exists e. split; [reflexivity|].
      destruct (_ && _); injection He as <-; exact Ho.
  Qed.
  Lemma hsafely_ftruncate fd sz : fd <> x -> hsafely x o (sys_ftruncate t fd sz).
  Proof.
    intros Hx. apply hsafely_ask. intros a w. destruct (sz <? 0); [apply hsafe_refl|]. destruct (w_fd w fd) as [f|] eqn:Ef; [|apply hsafe_refl].
    destruct (negb (fd_w f)); [apply hsafe_refl|]. intros P1. apply hsafe_resize; [|exact P1]. exact (hd_fd _ _ _ P1 _ _ Hx Ef).
  Qed.
  Lemma hsafely_fstat fd : hsafely x o (sys_fstat fd).
  Proof. apply hsafely_ask. intros a w. destruct (w_fd w fd); apply hsafe_refl. Qed.
  Lemma hsafely_close fd : fd <> x -> hsafely x o (sys_close fd).
  Proof.
    intros Hx w [P1 P0 P2 P3]. split; cbn; eauto. split; cbn; try assumption.
    - rewrite put_other by congruence. exact P0.
    - intros fd' f. unfold put. destruct (fd' =? fd); [discriminate|apply P2].
  Qed.
  Lemma hsafely_memfd : hsafely x o sys_memfd.
  Proof.
    apply hsafely_ask. intros a w. destruct (new_fd_ok w a) eqn:N; [|apply hsafe_refl]. cbn [negb]. cbv zeta.
    apply new_fd_ok_iff in N as [_ N]. intros [P1 P0 P2 P3]. split; cbn; eauto.
    - split; cbn; [lia| | |assumption].
      + rewrite put_other by congruence. exact P0.
      + intros fd f Hfd. unfold put. destruct (fd =? a); [|apply P2, Hfd]. intros [= <-]. cbn. lia.
    - rewrite put_other by lia. reflexivity.
    - rewrite put_other by lia. reflexivity.
  Qed.
  Lemma hsafely_open path wr creat excl trunc : 0 <= path \/ (creat = true /\ excl = true) ->
    hsafely x o (sys_open t path wr creat excl trunc).
  Proof.
    intros Hp. apply hsafely_ask. intros a w. destruct (new_fd_ok w a) eqn:N; [|apply hsafe_refl]. cbn [negb].
    apply new_fd_ok_iff in N as [_ N]. destruct (w_fs w path) as [o'|] eqn:Ef.
    - destruct (creat && excl) eqn:Ece; [apply hsafe_refl|].
      destruct Hp as [Hp|[-> ->]]; [|discriminate Ece]. cbv zeta. intros P1.
      assert (No : o' <> o) by (intros ->; exact (hd_fs _ _ _ P1 _ Hp Ef)).
      assert (Na : x <> a) by (intros ->; rewrite (hd_own _ _ _ P1) in N; discriminate N).
      assert (S1 : hsafe x o w (if trunc && (0 <? o_size (w_obj w o')) then resize_obj t o' 0 w else w)).
      { destruct (trunc && _); [exact (hsafe_resize o' 0 w No)|apply hsafe_refl]. }
      revert P1. eapply hsafe_trans; [exact S1|]. generalize (if trunc && (0 <? o_size (w_obj w o')) then resize_obj t o' 0 w else w). intros w1.
      intros [Q1 Q0 Q2 Q3]. split; cbn; eauto. split; cbn; try assumption.
      + rewrite put_other by exact Na. exact Q0.
      + intros fd f Hfd. unfold put. destruct (fd =? a); [|apply Q2, Hfd]. intros [= <-]. exact No.
    - destruct (negb creat); [apply hsafe_refl|]. cbv zeta. intros [P1 P0 P2 P3].
      assert (Na : x <> a) by congruence. split; cbn; eauto.
      + split; cbn; [lia| | |].
        * rewrite put_other by exact Na. exact P0.
        * intros fd f Hfd. unfold put. destruct (fd =? a); [|apply P2, Hfd]. intros [= <-]. cbn. lia.
        * intros q Hq. unfold put. destruct (q =? path); [|apply P3, Hq]. intros [= E]. lia.
      + rewrite put_other by lia. reflexivity.
      + rewrite put_other by lia. reflexivity.
  Qed.
  Lemma hsafely_unlink path : hsafely x o (sys_shm_unlink path).
  Proof.
    apply hsafely_ask. intros a w. destruct (w_fs w path); [|apply hsafe_refl]. intros [P1 P0 P2 P3]. split; cbn; eauto. split; cbn; try assumption.
    intros q Hq. unfold put. destruct (q =? path); [discriminate|apply P3, Hq].
  Qed.
  Lemma hsafe_store {E} a b w : (forall e, w_vm w (a / t_page t) = Some e -> p_obj e <> o) -> hsafe x o w (snd (store (E:=E) t a b w)).
  Proof.
    intros H. unfold store. destruct (w_vm w (a / t_page t)) as [e|] eqn:Ev; [|apply hsafe_refl]. specialize (H e eq_refl).
    destruct (negb _); [apply hsafe_refl|]. cbv zeta. destruct (_ <=? _); [apply hsafe_refl|]. destruct (p_shared e).
    - destruct (_ <? _); [|apply hsafe_refl]. apply hsafe_objs; rewrite put_other by auto; reflexivity.
    - apply hsafe_vm. intros p e'. unfold put. destruct (Z.eqb_spec p (a / t_page t)) as [->|]; [|eauto]. intros [= <-] Ho. contradiction.
  Qed.

  (** ** The map functions *)
  Lemma hsafely_map_file fd off len p : fd <> x -> hsafely x o (os_map_file t fd off len p).
  Proof. intros Hx. destruct p; apply hsafely_os, hsafely_mmap; auto. Qed.
  Lemma hsafely_map_anon len p : hsafely x o (os_map_anon t len p).
  Proof. destruct p; apply hsafely_os, hsafely_mmap; auto. right. lia. Qed.
  Lemma hsafely_unmap pg len : hsafely x o (os_unmap t pg len).
  Proof. apply hsafely_os, hsafely_munmap. Qed.
  Lemma hsafely_protect pg len p : hsafely x o (os_protect t pg len p).
  Proof. apply hsafely_os, hsafely_on_range. reflexivity. Qed.
  Lemma hsafely_flush pg len md : hsafely x o (os_flush t pg len md).
  Proof. apply hsafely_os, hsafely_msync. Qed.
  Lemma hsafely_advise pg len adv : hsafely x o (os_advise t pg len adv).
  Proof. apply hsafely_os, hsafely_on_range. intros e. destruct adv; reflexivity. Qed.
  Lemma hsafely_lock pg len : hsafely x o (os_lock t pg len).
  Proof. apply hsafely_os, hsafely_on_range. reflexivity. Qed.
  Lemma hsafely_unlock pg len : hsafely x o (os_unlock t pg len).
  Proof. apply hsafely_os, hsafely_on_range. reflexivity. Qed.
  Lemma hsafely_whole m f : (forall p l, hsafely x o (f p l)) -> hsafely x o (whole t m f).
  Proof. intros H. apply hsafely_bind; [apply hsafely_out|]. intros b. apply H. Qed.
  Lemma hsafely_ranged op m off len f : (forall p l, hsafely x o (f p l)) -> hsafely x o (ranged t op m off len f).
  Proof.
    intros H. apply hsafely_bind; [apply hsafely_out|]. intros e. destruct (_ <? _); [apply hsafely_out|].
    apply hsafely_bind; [apply hsafely_out|]. intros b. apply H.
  Qed.
  Lemma hsafely_convert m f : hsafely x o f -> hsafely x o (convert m f).
  Proof. intros H w. specialize (H w). unfold convert. destruct (f w) as [[[]|e| | |] w1]; exact H. Qed.
  Lemma hsafely_set_len fd sz : fd <> x -> hsafely x o (file_set_len t fd sz).
  Proof.
    intros Hx w. unfold file_set_len. destruct (_ <? _); [apply hsafe_refl|]. pose proof (hsafely_ftruncate fd sz Hx w) as H.
    destruct (sys_ftruncate t fd sz w) as [[a|e| | |] w1]; exact H.
  Qed.
  Lemma hsafely_file_len fd : hsafely x o (file_len fd).
  Proof.
    intros w. unfold file_len. pose proof (hsafely_fstat fd w) as H. destruct (sys_fstat fd w) as [[a|e| | |] w1]; exact H.
  Qed.
  Lemma hsafely_file_open oo path : 0 <= path -> hsafely x o (file_open t oo path).
  Proof.
    intros Hp w. unfold file_open. destruct (_ && _); [apply hsafe_refl|].
    pose proof (hsafely_open path (oo_write oo) (oo_create oo || oo_create_new oo) (oo_create_new oo)
                  (oo_truncate oo && negb (oo_create_new oo)) (or_introl Hp) w) as H.
    destruct (sys_open _ _ _ _ _ _ w) as [[a|e| | |] w1]; exact H.
  Qed.
  Lemma hsafely_resize_to fd sz : fd <> x -> hsafely x o (resize_to t fd sz).
  Proof. intros Hx. apply hsafely_bind; [apply hsafely_io, hsafely_set_len, Hx|]. intros. apply hsafely_ret. Qed.
  Lemma hsafely_alloc op : hsafely x o (alloc t op).
  Proof.
    apply hsafely_bind; [apply hsafely_out|]. intros off. apply hsafely_bind.
    { destruct (op_len op); apply hsafely_out || apply hsafely_ret. }
    intros len. apply hsafely_bind; [apply hsafely_out|]. intros tot. apply hsafely_bind; [apply hsafely_map_anon|]. intros. apply hsafely_ret.
  Qed.
  Lemma hsafely_drop m : hsafely x o (drop_map t m).
  Proof.
    intros w. unfold drop_map. destruct (_ <? _); [|apply hsafe_refl]. destruct (size_bounds _ _ _ _) as [[p l]|e| | |]; try apply hsafe_refl.
    pose proof (hsafely_unmap p l w) as H. destruct (os_unmap t p l w) as [[a|e| | |] w1]; exact H.
  Qed.

  (** Other processes do not reach it. *)
  Lemma hsafe_others e : named_ok (COther e) -> forall w, hsafe x o w (others t e w).
  Proof.
    intros He w. destruct e as [path|path|from to|path sz|path sz|path off d sync]; cbn [others named_ok] in *; unfold at_name.
    - destruct (w_fs w path); [apply hsafe_refl|]. intros [P1 P0 P2 P3]. split; cbn; rewrite ?put_other by lia; eauto. split; cbn; [lia|exact P0|exact P2|].
      intros q Hq. unfold put. destruct (q =? path); [intros [= E]; lia|exact (P3 q Hq)].
    - intros [P1 P0 P2 P3]. split; cbn; eauto. split; cbn; try assumption. intros q Hq. unfold put. destruct (q =? path); [discriminate|exact (P3 q Hq)].
    - destruct (w_fs w from) as [o'|] eqn:Ef; [|apply hsafe_refl]. intros [P1 P0 P2 P3]. split; cbn; eauto. split; cbn; try assumption.
      intros q Hq. unfold put. destruct (q =? to); [|exact (P3 q Hq)]. rewrite <- Ef. exact (P3 from He).
    - destruct (w_fs w path) as [o'|] eqn:Ef; [|apply hsafe_refl]. destruct (_ <? _); [|apply hsafe_refl].
      intros Pv. apply hsafe_resize; [|exact Pv]. intros ->. exact (hd_fs _ _ _ Pv path He Ef).
    - destruct (w_fs w path) as [o'|] eqn:Ef; [|apply hsafe_refl]. destruct (_ <? _); [|apply hsafe_refl].
      intros Pv. apply hsafe_resize; [|exact Pv]. intros ->. exact (hd_fs _ _ _ Pv path He Ef).
    - destruct (w_fs w path) as [o'|] eqn:Ef; [|apply hsafe_refl].
      intros Pv. apply hsafe_objs; [| |exact Pv]; (destruct (Z.eq_dec o o') as [->|No]; [destruct (hd_fs _ _ _ Pv path He Ef)|]); intros; rewrite put_other by exact No; reflexivity.
  Qed.

  (** ** A map call made as one step *)
  Lemma hsafe_step c a : named_ok c ->
    (match c with COpen _ _ _ | CMap _ _ _ => False | CClose fd => fd <> x
     | CSet k i b => forall l, a_live a k = Some l -> 0 <= i < m_len (l_map l) ->
       forall e, w_vm (a_w a) (ptr_add t (m_ptr (l_map l)) i / t_page t) = Some e -> p_obj e <> o | _ => True end) ->
    hsafe x o (a_w a) (a_w (snd (step t c a))).
  Proof.
    intros Hp Hs.
    assert (U : forall y : out error unit * world, hsafe x o (a_w a) (snd y) -> hsafe x o (a_w a) (a_w (snd (unit_call a y)))).
    { intros [r w1] H. exact H. }
    assert (Wm : forall k f, (forall l, a_live a k = Some l -> hsafe x o (a_w a) (a_w (snd (f l)))) -> hsafe x o (a_w a) (a_w (snd (with_map a k f)))).
    { intros k f H. unfold with_map. destruct (a_live a k) as [l|]; [apply H; reflexivity|apply hsafe_refl]. }
    destruct c as [mut op path|mut op fd|mut op|fd|k|k|k i|k i b|k md|k off len md|k adv|k off len adv|k|k off len|k|k off len|k|o' pg|oe]; cbn [step].
    - destruct Hs.
    - destruct Hs.
    - pose proof (hsafely_alloc op (a_w a)) as H. destruct (alloc t op (a_w a)) as [[m|e| | |] w1]; exact H.
    - apply hsafely_close, Hs.
    - apply Wm. intros l _. destruct (l_mut l); [apply hsafe_refl|].
      assert (H : hsafely x o (into_map_mut t (l_map l))) by (apply hsafely_convert, hsafely_bind; [apply hsafely_out|intros b; apply hsafely_protect]).
      specialize (H (a_w a)). destruct (into_map_mut t (l_map l) (a_w a)) as [[m|[e m]| | |] w1]; exact H.
    - apply Wm. intros l _. destruct (negb (l_mut l)); [apply hsafe_refl|].
      assert (H : hsafely x o (into_map t (l_map l))) by (apply hsafely_convert, hsafely_bind; [apply hsafely_out|intros b; apply hsafely_protect]).
      specialize (H (a_w a)). destruct (into_map t (l_map l) (a_w a)) as [[m|[e m]| | |] w1]; exact H.
    - apply Wm. intros l _. unfold map_get. destruct (_ && _); [|apply hsafe_refl]. destruct (OsModel.load _ _ _); apply hsafe_refl.
    - apply Wm. intros l El. destruct (l_mut l); [|apply hsafe_refl]. apply U. unfold map_set.
      destruct (Z.leb_spec 0 i); cbn [andb]; [|apply hsafe_refl]. destruct (Z.ltb_spec i (m_len (l_map l))); [|apply hsafe_refl].
      apply hsafe_store. apply (Hs l El). lia.
    - apply Wm. intros l _. destruct (l_mut l); [|apply hsafe_refl]. apply U, hsafely_whole. intros. apply hsafely_flush.
    - apply Wm. intros l _. destruct (l_mut l); [|apply hsafe_refl]. apply U, hsafely_ranged. intros. apply hsafely_flush.
    - apply Wm. intros l _. apply U, hsafely_whole. intros. apply hsafely_advise.
    - apply Wm. intros l _. apply U, hsafely_ranged. intros. apply hsafely_advise.
    - apply Wm. intros l _. apply U, hsafely_whole. apply hsafely_lock.
    - apply Wm. intros l _. apply U, hsafely_ranged. apply hsafely_lock.
    - apply Wm. intros l _. apply U, hsafely_whole. apply hsafely_unlock.
    - apply Wm. intros l _. apply U, hsafely_ranged. apply hsafely_unlock.
    - apply Wm. intros l _. pose proof (hsafely_drop (l_map l) (a_w a)) as H. destruct (drop_map t (l_map l) (a_w a)) as [[y|e| | |] w1]; exact H.
    - apply hsafe_writeback.
    - apply hsafe_others, Hp.
  Qed.

  Lemma hsafely_unmap_ring pg len : hsafely x o (unmap_ring t pg len).
  Proof. apply hsafely_bind; [apply hsafely_out|]. intros l. apply hsafely_unmap. Qed.
  Lemma hsafely_ignore m : hsafely x o m -> hsafely x o (ignore m).
  Proof. intros H w. specialize (H w). unfold ignore. destruct (m w) as [[a|e| | |] w1]; exact H. Qed.

  (** ** The stages of other threads *)
  Lemma hsafely_size_part op fd flen : fd <> x -> hsafely x o (size_part t op fd flen).
  Proof.
    intros Hx. unfold size_part. destruct (op_resize op) as [|sz|sz|sz]; try destruct (_ <? _); (apply hsafely_ret || apply hsafely_resize_to, Hx).
  Qed.
  Lemma hsafely_map_part op fd flen : fd <> x -> hsafely x o (map_part t op fd flen).
  Proof.
    intros Hx. unfold map_part. destruct (_ <? _); [apply hsafely_ret|]. apply hsafely_bind; [apply hsafely_out|]. intros mx.
    destruct (extent_len _ _) as [len|]; [|apply hsafely_ret].
    do 3 (apply hsafely_bind; [apply hsafely_out|]; intros ?). apply hsafely_bind; [apply hsafely_map_file, Hx|]. intros. apply hsafely_ret.
  Qed.
End Hidden.

(** The same stages and memory nothing names (ProcFrame.v). *)
Section Private.
  Variable t : target.
  Variable o : Z.
  Lemma safely_size_part op fd flen : safely o (size_part t op fd flen).
  Proof.
    unfold size_part. destruct (op_resize op) as [|sz|sz|sz]; try destruct (_ <? _); (apply safely_ret || apply safely_resize_to).
  Qed.
  Lemma safely_map_part op fd flen : safely o (map_part t op fd flen).
  Proof.
    unfold map_part. destruct (_ <? _); [apply safely_ret|]. apply safely_bind; [apply safely_out|]. intros mx.
    destruct (extent_len _ _) as [len|]; [|apply safely_ret].
    do 3 (apply safely_bind; [apply safely_out|]; intros ?). apply safely_bind; [apply safely_map_file|]. intros. apply safely_ret.
  Qed.
End Private.
