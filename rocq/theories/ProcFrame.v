(** What no call can do to memory that nothing names: an object without a
    descriptor and without a file name keeps its bytes, and no new page shows
    it. *)
From Coq Require Import Lia.
From Verif Require Import Base ErrorModel SizeModel OsModel MapModel MapSpec OsProofs MapProofs MapCreate OthersModel ApiModel ApiSpec OthersProofs RingMapModel RingMapSpec MirrorProofs.

(** Names of files are numbers from 0; those below are the shared memory
    names (RingMapModel.v). *)
Record priv (w : world) (o : Z) : Prop := {
  pv_old : o < w_next w;
  pv_fd : forall fd f, w_fd w fd = Some f -> fd_obj f <> o;
  pv_fs : forall path, 0 <= path -> w_fs w path <> Some o
}.

Record safe' (o : Z) (w w' : world) : Prop := {
  sa_priv : priv w' o;
  sa_size : o_size (w_obj w' o) = o_size (w_obj w o);
  sa_data : forall i, o_data (w_obj w' o) i = o_data (w_obj w o) i;
  sa_vm : forall p e', w_vm w' p = Some e' -> p_obj e' = o -> exists e, w_vm w p = Some e /\ p_obj e = o
}.
Definition safe (o : Z) (w w' : world) : Prop := priv w o -> safe' o w w'.
Definition safely {E A} (o : Z) (m : ST E A) : Prop := forall w, safe o w (snd (m w)).

Lemma safe_refl o w : safe o w w.
Proof. intros H. split; eauto. Qed.
Lemma safe_trans o w1 w2 w3 : safe o w1 w2 -> safe o w2 w3 -> safe o w1 w3.
Proof.
  intros H1 H2 H. destruct (H1 H) as [P1 S1 D1 V1]. destruct (H2 P1) as [P2 S2 D2 V2]. split.
  - exact P2.
  - congruence.
  - intros i. rewrite D2. apply D1.
  - intros p e' He Ho. destruct (V2 p e' He Ho) as (e & He1 & Ho1). exact (V1 p e He1 Ho1).
Qed.
Lemma safe_quiet o w w' : quiet w w' -> safe o w w'.
Proof.
  intros [V O N F S] [P1 P2 P3]. split.
  - split; [rewrite N; exact P1|rewrite F; exact P2|rewrite S; exact P3].
  - rewrite O. reflexivity.
  - rewrite O. reflexivity.
  - rewrite V. eauto.
Qed.

(** Programs *)
Lemma safely_ret {E A} o (a : A) : safely o (sret (E:=E) a).
Proof. intros w. apply safe_refl. Qed.
Lemma safely_out {E A} o (x : out E A) : safely o (sout x).
Proof. intros w. apply safe_refl. Qed.
Lemma safely_bind {E A B} o (m : ST E A) (k : A -> ST E B) : safely o m -> (forall a, safely o (k a)) -> safely o (sbind m k).
Proof.
  intros H K w. unfold sbind. specialize (H w). destruct (m w) as [[a|e| | |] w1]; cbn in *; try exact H.
  exact (safe_trans _ _ _ _ H (K a w1)).
Qed.
Lemma safely_os {A} o op (m : ST Z A) : safely o m -> safely o (os_call op m).
Proof. intros H w. unfold os_call. specialize (H w). destruct (m w) as [[a|e| | |] w1]; exact H. Qed.
Lemma safely_io {A} o (m : ST io_error A) : safely o m -> safely o (io_call m).
Proof. intros H w. unfold io_call. specialize (H w). destruct (m w) as [[a|e| | |] w1]; exact H. Qed.
Lemma safely_ask {A} o (k : Z -> ST Z A) : (forall a, safely o (k a)) -> safely o (ask k).
Proof.
  intros H w. unfold ask. destruct (w_orc w) as [|[e|a] q]; cbn.
  - apply safe_refl.
  - apply safe_quiet. split; reflexivity.
  - apply (safe_trans _ _ (set_orc w q)); [apply safe_quiet; split; reflexivity|apply H].
Qed.

Section Frame.
  Variable t : target.
  Variable o : Z.

  (** Entries changed in place, taken away or made of something else. *)
  Lemma safe_vm w f : (forall p e', f p = Some e' -> p_obj e' = o -> exists e, w_vm w p = Some e /\ p_obj e = o) -> safe o w (set_vm w f).
  Proof. intros H [P1 P2 P3]. split; cbn; auto. split; assumption. Qed.

  Lemma safely_mmap fixed addr len pr shared anon fd off : safely o (sys_mmap t fixed addr len pr shared anon fd off).
  Proof.
    apply safely_ask. intros a w. destruct (len <=? 0); [apply safe_refl|]. destruct (_ || _); [apply safe_refl|]. cbv zeta.
    destruct (negb (range_ok _ _ _)); [apply safe_refl|]. destruct (negb fixed && _); [apply safe_refl|].
    unfold backing. destruct anon; cbn.
    - intros [P1 P2 P3]. split; cbn.
      + split; cbn; [lia|exact P2|exact P3].
      + rewrite put_other by lia. reflexivity.
      + rewrite put_other by lia. reflexivity.
      + intros p e'. destruct (in_pages _ _ p); [|eauto]. intros [= <-]. cbn. lia.
    - destruct (w_fd w fd) as [f|] eqn:Ef; cbn; [|apply safe_refl]. destruct (shared && pr_w pr && negb (fd_w f)); cbn; [apply safe_refl|].
      intros [P1 P2 P3]. split; cbn; auto; [split; assumption|].
      intros p e'. destruct (in_pages _ _ p); [|eauto]. intros [= <-]. cbn. intros Eo. destruct (P2 _ _ Ef Eo).
  Qed.
  Lemma safely_munmap addr len : safely o (sys_munmap t addr len).
  Proof.
    apply safely_ask. intros a w. destruct (_ || _); [apply safe_refl|]. apply safe_vm. intros p e'.
    destruct (in_pages _ _ p); [discriminate|eauto].
  Qed.
  Lemma safely_on_range addr len ok f : (forall e, p_obj (f e) = p_obj e) -> safely o (on_range t addr len ok f).
  Proof.
    intros K. apply safely_ask. intros a w. destruct (negb _); [apply safe_refl|]. cbv zeta. destruct (negb _); [apply safe_refl|].
    destruct (fold_left _ _ _); try apply safe_refl. apply safe_vm. intros p e'. destruct (in_pages _ _ p); [|eauto].
    destruct (w_vm w p) as [e|]; cbn; [|discriminate]. intros [= <-] Ho. exists e. rewrite K in Ho. auto.
  Qed.
  Lemma safe_objs w f : o_size (f o) = o_size (w_obj w o) -> (forall i, o_data (f o) i = o_data (w_obj w o) i) -> safe o w (set_obj w f).
  Proof. intros H1 H2 [P1 P2 P3]. split; cbn; eauto. split; assumption. Qed.
  Lemma safely_msync addr len sync : safely o (sys_msync t addr len sync).
  Proof.
    apply safely_ask. intros a w. destruct (negb _); [apply safe_refl|]. cbv zeta. destruct (negb _); [apply safe_refl|].
    destruct sync; [|apply safe_refl]. apply safe_objs; reflexivity.
  Qed.
  Lemma safe_writeback o' pg w : safe o w (writeback t o' pg w).
  Proof. apply safe_objs; unfold put; destruct (Z.eqb_spec o o') as [->|]; reflexivity. Qed.
  Lemma safe_resize o' sz w : o' <> o -> safe o w (resize_obj t o' sz w).
  Proof.
    intros N [P1 P2 P3]. unfold resize_obj. split; cbn.
    - split; assumption.
    - rewrite put_other by auto. reflexivity.
    - rewrite put_other by auto. reflexivity.
    - intros p e'. destruct (w_vm w p) as [e|]; [|discriminate]. intros He Ho. exists e. split; [reflexivity|].
      destruct (_ && _); injection He as <-; exact Ho.
  Qed.
  Lemma safely_ftruncate fd sz : safely o (sys_ftruncate t fd sz).
  Proof.
    apply safely_ask. intros a w. destruct (sz <? 0); [apply safe_refl|]. destruct (w_fd w fd) as [f|] eqn:Ef; [|apply safe_refl].
    destruct (negb (fd_w f)); [apply safe_refl|]. intros P1. apply safe_resize; [|exact P1]. exact (pv_fd _ _ P1 _ _ Ef).
  Qed.
  Lemma safely_fstat fd : safely o (sys_fstat fd).
  Proof. apply safely_ask. intros a w. destruct (w_fd w fd); apply safe_refl. Qed.
  Lemma safely_close fd : safely o (sys_close fd).
  Proof.
    intros w [P1 P2 P3]. split; cbn; eauto. split; cbn; try assumption. intros fd' f. unfold put. destruct (fd' =? fd); [discriminate|apply P2].
  Qed.
  Lemma safely_memfd : safely o sys_memfd.
  Proof.
    apply safely_ask. intros a w. destruct (negb _); [apply safe_refl|]. cbv zeta. intros [P1 P2 P3]. split; cbn; eauto.
    - split; cbn; [lia| |assumption]. intros fd f. unfold put. destruct (fd =? a); [|apply P2]. intros [= <-]. cbn. lia.
    - rewrite put_other by lia. reflexivity.
    - rewrite put_other by lia. reflexivity.
  Qed.
  Lemma safely_open path wr creat excl trunc : 0 <= path \/ (creat = true /\ excl = true) ->
    safely o (sys_open t path wr creat excl trunc).
  Proof.
    intros Hp. apply safely_ask. intros a w. destruct (negb _); [apply safe_refl|]. destruct (w_fs w path) as [o'|] eqn:Ef.
    - destruct (creat && excl) eqn:Ece; [apply safe_refl|].
      destruct Hp as [Hp|[-> ->]]; [|discriminate Ece]. cbv zeta. intros P1.
      assert (No : o' <> o) by (intros ->; exact (pv_fs _ _ P1 _ Hp Ef)).
      assert (S1 : safe o w (if trunc && (0 <? o_size (w_obj w o')) then resize_obj t o' 0 w else w)).
      { destruct (trunc && _); [exact (safe_resize o' 0 w No)|apply safe_refl]. }
      revert P1. eapply safe_trans; [exact S1|]. generalize (if trunc && (0 <? o_size (w_obj w o')) then resize_obj t o' 0 w else w). intros w1.
      intros [Q1 Q2 Q3]. split; cbn; eauto. split; cbn; try assumption.
      intros fd f. unfold put. destruct (fd =? a); [|apply Q2]. intros [= <-]. exact No.
    - destruct (negb creat); [apply safe_refl|]. cbv zeta. intros [P1 P2 P3]. split; cbn; eauto.
      + split; cbn; [lia| |].
        * intros fd f. unfold put. destruct (fd =? a); [|apply P2]. intros [= <-]. cbn. lia.
        * intros q Hq. unfold put. destruct (q =? path); [|apply P3, Hq]. intros [= E]. lia.
      + rewrite put_other by lia. reflexivity.
      + rewrite put_other by lia. reflexivity.
  Qed.
  Lemma safely_unlink path : safely o (sys_shm_unlink path).
  Proof.
    apply safely_ask. intros a w. destruct (w_fs w path); [|apply safe_refl]. intros [P1 P2 P3]. split; cbn; eauto. split; cbn; try assumption.
    intros q Hq. unfold put. destruct (q =? path); [discriminate|apply P3, Hq].
  Qed.
  Lemma safe_store {E} a b w : (forall e, w_vm w (a / t_page t) = Some e -> p_obj e <> o) -> safe o w (snd (store (E:=E) t a b w)).
  Proof.
    intros H. unfold store. destruct (w_vm w (a / t_page t)) as [e|] eqn:Ev; [|apply safe_refl]. specialize (H e eq_refl).
    destruct (negb _); [apply safe_refl|]. cbv zeta. destruct (_ <=? _); [apply safe_refl|]. destruct (p_shared e).
    - destruct (_ <? _); [|apply safe_refl]. apply safe_objs; rewrite put_other by auto; reflexivity.
    - apply safe_vm. intros p e'. unfold put. destruct (Z.eqb_spec p (a / t_page t)) as [->|]; [|eauto]. intros [= <-] Ho. contradiction.
  Qed.

  (** ** The map functions *)
  Lemma safely_map_file fd off len p : safely o (os_map_file t fd off len p).
  Proof. destruct p; apply safely_os, safely_mmap. Qed.
  Lemma safely_map_anon len p : safely o (os_map_anon t len p).
  Proof. destruct p; apply safely_os, safely_mmap. Qed.
  Lemma safely_unmap pg len : safely o (os_unmap t pg len).
  Proof. apply safely_os, safely_munmap. Qed.
  Lemma safely_protect pg len p : safely o (os_protect t pg len p).
  Proof. apply safely_os, safely_on_range. reflexivity. Qed.
  Lemma safely_flush pg len md : safely o (os_flush t pg len md).
  Proof. apply safely_os, safely_msync. Qed.
  Lemma safely_advise pg len adv : safely o (os_advise t pg len adv).
  Proof. apply safely_os, safely_on_range. intros e. destruct adv; reflexivity. Qed.
  Lemma safely_lock pg len : safely o (os_lock t pg len).
  Proof. apply safely_os, safely_on_range. reflexivity. Qed.
  Lemma safely_unlock pg len : safely o (os_unlock t pg len).
  Proof. apply safely_os, safely_on_range. reflexivity. Qed.

  Lemma safely_whole m f : (forall p l, safely o (f p l)) -> safely o (whole t m f).
  Proof. intros H. apply safely_bind; [apply safely_out|]. intros b. apply H. Qed.
  Lemma safely_ranged op m off len f : (forall p l, safely o (f p l)) -> safely o (ranged t op m off len f).
  Proof.
    intros H. apply safely_bind; [apply safely_out|]. intros e. destruct (_ <? _); [apply safely_out|].
    apply safely_bind; [apply safely_out|]. intros b. apply H.
  Qed.
  Lemma safely_convert m f : safely o f -> safely o (convert m f).
  Proof. intros H w. specialize (H w). unfold convert. destruct (f w) as [[[]|e| | |] w1]; exact H. Qed.
  Lemma safely_set_len fd sz : safely o (file_set_len t fd sz).
  Proof.
    intros w. unfold file_set_len. destruct (_ <? _); [apply safe_refl|]. pose proof (safely_ftruncate fd sz w) as H.
    destruct (sys_ftruncate t fd sz w) as [[a|e| | |] w1]; exact H.
  Qed.
  Lemma safely_file_len fd : safely o (file_len fd).
  Proof.
    intros w. unfold file_len. pose proof (safely_fstat fd w) as H. destruct (sys_fstat fd w) as [[a|e| | |] w1]; exact H.
  Qed.
  Lemma safely_file_open oo path : 0 <= path -> safely o (file_open t oo path).
  Proof.
    intros Hp w. unfold file_open. destruct (_ && _); [apply safe_refl|].
    pose proof (safely_open path (oo_write oo) (oo_create oo || oo_create_new oo) (oo_create_new oo)
                  (oo_truncate oo && negb (oo_create_new oo)) (or_introl Hp) w) as H.
    destruct (sys_open _ _ _ _ _ _ w) as [[a|e| | |] w1]; exact H.
  Qed.
  Lemma safely_resize_to fd sz : safely o (resize_to t fd sz).
  Proof. apply safely_bind; [apply safely_io, safely_set_len|]. intros. apply safely_ret. Qed.
  Lemma safely_map_if op fd : safely o (map_if t op fd).
  Proof.
    unfold map_if. apply safely_bind.
    { apply safely_bind; [apply safely_io, safely_file_len|]. intros. apply safely_ret. }
    intros l. apply safely_bind; [destruct (_ && _); [apply safely_resize_to|apply safely_ret]|]. clear l.
    intros l. apply safely_bind.
    { destruct (op_resize op); [apply safely_ret|apply safely_resize_to| |]; destruct (_ <? _); (apply safely_resize_to || apply safely_ret). }
    clear l. intros l. destruct (_ <? _); [apply safely_ret|]. apply safely_bind; [apply safely_out|]. intros mx.
    destruct (extent_len _ _) as [len|]; [|apply safely_ret].
    do 3 (apply safely_bind; [apply safely_out|]; intros ?). apply safely_bind; [apply safely_map_file|]. intros. apply safely_ret.
  Qed.
  Lemma safely_closing {A} fd (m : ST error A) : safely o m -> safely o (closing fd m).
  Proof.
    intros H w. unfold closing. specialize (H w). destruct (m w) as [[a|e| | |] w1]; try exact H;
      exact (safe_trans _ _ _ _ H (safely_close fd w1)).
  Qed.
  Lemma safely_open_if op path : 0 <= path -> safely o (open_if t op path).
  Proof.
    intros Hp. apply safely_bind; [apply safely_io, safely_file_open, Hp|]. intros f.
    apply safely_bind; [apply safely_closing, safely_map_if|]. intros. apply safely_ret.
  Qed.
  Lemma safely_alloc op : safely o (alloc t op).
  Proof.
    apply safely_bind; [apply safely_out|]. intros off. apply safely_bind.
    { destruct (op_len op); apply safely_out || apply safely_ret. }
    intros len. apply safely_bind; [apply safely_out|]. intros tot. apply safely_bind; [apply safely_map_anon|]. intros. apply safely_ret.
  Qed.
  Lemma safely_drop m : safely o (drop_map t m).
  Proof.
    intros w. unfold drop_map. destruct (_ <? _); [|apply safe_refl]. destruct (size_bounds _ _ _ _) as [[p l]|e| | |]; try apply safe_refl.
    pose proof (safely_unmap p l w) as H. destruct (os_unmap t p l w) as [[a|e| | |] w1]; exact H.
  Qed.

  (** ** A map call.  Its stores do not reach [o]. *)
  (** Other processes do not reach it. *)
  Lemma safe_others e : named_ok (COther e) -> forall w, safe o w (others t e w).
  Proof.
    intros He w. destruct e as [path|path|from to|path sz|path sz|path off d sync]; cbn [others named_ok] in *; unfold at_name.
    - destruct (w_fs w path); [apply safe_refl|]. intros [P1 P2 P3]. split; cbn; rewrite ?put_other by lia; eauto. split; cbn; [lia|exact P2|].
      intros q Hq. unfold put. destruct (q =? path); [intros [= E]; lia|exact (P3 q Hq)].
    - intros [P1 P2 P3]. split; cbn; eauto. split; cbn; try assumption. intros q Hq. unfold put. destruct (q =? path); [discriminate|exact (P3 q Hq)].
    - destruct (w_fs w from) as [o'|] eqn:Ef; [|apply safe_refl]. intros [P1 P2 P3]. split; cbn; eauto. split; cbn; try assumption.
      intros q Hq. unfold put. destruct (q =? to); [|exact (P3 q Hq)]. rewrite <- Ef. exact (P3 from He).
    - destruct (w_fs w path) as [o'|] eqn:Ef; [|apply safe_refl]. destruct (_ <? _); [|apply safe_refl].
      intros Pv. apply safe_resize; [|exact Pv]. intros ->. exact (pv_fs _ _ Pv path He Ef).
    - destruct (w_fs w path) as [o'|] eqn:Ef; [|apply safe_refl]. destruct (_ <? _); [|apply safe_refl].
      intros Pv. apply safe_resize; [|exact Pv]. intros ->. exact (pv_fs _ _ Pv path He Ef).
    - destruct (w_fs w path) as [o'|] eqn:Ef; [|apply safe_refl].
      intros Pv. apply safe_objs; [| |exact Pv]; (destruct (Z.eq_dec o o') as [->|No]; [destruct (pv_fs _ _ Pv path He Ef)|]); intros; rewrite put_other by exact No; reflexivity.
  Qed.

  Lemma safe_step c a : named_ok c ->
    (match c with CSet k i b => forall l, a_live a k = Some l -> 0 <= i < m_len (l_map l) ->
       forall e, w_vm (a_w a) (ptr_add t (m_ptr (l_map l)) i / t_page t) = Some e -> p_obj e <> o | _ => True end) ->
    safe o (a_w a) (a_w (snd (step t c a))).
  Proof.
    intros Hp Hs.
    assert (U : forall x : out error unit * world, safe o (a_w a) (snd x) -> safe o (a_w a) (a_w (snd (unit_call a x)))).
    { intros [r w1] H. exact H. }
    assert (Wm : forall k f, (forall l, a_live a k = Some l -> safe o (a_w a) (a_w (snd (f l)))) -> safe o (a_w a) (a_w (snd (with_map a k f)))).
    { intros k f H. unfold with_map. destruct (a_live a k) as [l|]; [apply H; reflexivity|apply safe_refl]. }
    destruct c as [mut op path|mut op fd|mut op|fd|k|k|k i|k i b|k md|k off len md|k adv|k off len adv|k|k off len|k|k off len|k|o' pg|oe]; cbn [step].
    - pose proof (safely_open_if op path Hp (a_w a)) as H. destruct (open_if t op path (a_w a)) as [[[[m|] fd]|e| | |] w1]; exact H.
    - pose proof (safely_map_if op fd (a_w a)) as H. destruct (map_if t op fd (a_w a)) as [[[m|]|e| | |] w1]; exact H.
    - pose proof (safely_alloc op (a_w a)) as H. destruct (alloc t op (a_w a)) as [[m|e| | |] w1]; exact H.
    - apply safely_close.
    - apply Wm. intros l _. destruct (l_mut l); [apply safe_refl|].
      assert (H : safely o (into_map_mut t (l_map l))) by (apply safely_convert, safely_bind; [apply safely_out|intros b; apply safely_protect]).
      specialize (H (a_w a)). destruct (into_map_mut t (l_map l) (a_w a)) as [[m|[e m]| | |] w1]; exact H.
    - apply Wm. intros l _. destruct (negb (l_mut l)); [apply safe_refl|].
      assert (H : safely o (into_map t (l_map l))) by (apply safely_convert, safely_bind; [apply safely_out|intros b; apply safely_protect]).
      specialize (H (a_w a)). destruct (into_map t (l_map l) (a_w a)) as [[m|[e m]| | |] w1]; exact H.
    - apply Wm. intros l _. unfold map_get. destruct (_ && _); [|apply safe_refl]. destruct (OsModel.load _ _ _); apply safe_refl.
    - apply Wm. intros l El. destruct (l_mut l); [|apply safe_refl]. apply U. unfold map_set.
      destruct (Z.leb_spec 0 i); cbn [andb]; [|apply safe_refl]. destruct (Z.ltb_spec i (m_len (l_map l))); [|apply safe_refl].
      apply safe_store. apply (Hs l El). lia.
    - apply Wm. intros l _. destruct (l_mut l); [|apply safe_refl]. apply U, safely_whole. intros. apply safely_flush.
    - apply Wm. intros l _. destruct (l_mut l); [|apply safe_refl]. apply U, safely_ranged. intros. apply safely_flush.
    - apply Wm. intros l _. apply U, safely_whole. intros. apply safely_advise.
    - apply Wm. intros l _. apply U, safely_ranged. intros. apply safely_advise.
    - apply Wm. intros l _. apply U, safely_whole. apply safely_lock.
    - apply Wm. intros l _. apply U, safely_ranged. apply safely_lock.
    - apply Wm. intros l _. apply U, safely_whole. apply safely_unlock.
    - apply Wm. intros l _. apply U, safely_ranged. apply safely_unlock.
    - apply Wm. intros l _. pose proof (safely_drop (l_map l) (a_w a)) as H. destruct (drop_map t (l_map l) (a_w a)) as [[x|e| | |] w1]; exact H.
    - apply safe_writeback.
    - apply safe_others, Hp.
  Qed.

  (** ** Allocating a ring *)
  Variable plat : platform.
  Lemma safely_shm clock fuel : forall round pb, safely o (shm_loop t clock fuel round pb).
  Proof.
    induction fuel as [|fuel IH]; intros round pb w; [apply safe_refl|]. cbn [shm_loop].
    destruct (shm_name (clock round) pb) as [[name pb']|e| | |]; try apply safe_refl.
    pose proof (safely_open (shm_path name) true true true false (or_intror (conj eq_refl eq_refl)) w) as H.
    destruct (sys_open t (shm_path name) true true true false w) as [[fd|e| | |] w1]; try exact H.
    - exact (safe_trans _ _ _ _ H (safely_unlink _ w1)).
    - cbv zeta. destruct (raw_os_error _) as [c|]; [|exact H]. destruct (c =? EEXIST); [|exact H].
      exact (safe_trans _ _ _ _ H (IH _ _ w1)).
  Qed.
  Lemma safely_memfd_open clock : safely o (memfd_open t plat clock).
  Proof. unfold memfd_open. destruct plat; [apply safely_os, safely_memfd|]. intros w. apply safely_shm. Qed.
  Lemma safely_tmp_open clock sz : safely o (tmp_open t plat clock sz).
  Proof.
    apply safely_bind; [apply safely_memfd_open|]. intros fd w. pose proof (safely_ftruncate fd (as_signed t sz) w) as H.
    destruct (sys_ftruncate t fd (as_signed t sz) w) as [[a|e| | |] w1]; try exact H. exact (safe_trans _ _ _ _ H (safely_close fd w1)).
  Qed.
  Lemma safely_ring_mmap op fixed pg len shared anon fd : safely o (ring_mmap t op fixed pg len shared anon fd).
  Proof. apply safely_os, safely_mmap. Qed.
  Lemma safely_unmap_ring pg len : safely o (unmap_ring t pg len).
  Proof. apply safely_bind; [apply safely_out|]. intros l. apply safely_unmap. Qed.
  Lemma safely_ignore m : safely o m -> safely o (ignore m).
  Proof. intros H w. specialize (H w). unfold ignore. destruct (m w) as [[a|e| | |] w1]; exact H. Qed.
  Lemma safely_wrap_fd len fd : safely o (wrap_fd t len fd).
  Proof.
    apply safely_bind; [apply safely_out|]. intros full. apply safely_bind; [apply safely_ring_mmap|]. intros pg w.
    assert (H : safely o (wrap_ptr t pg len fd)).
    { do 2 (apply safely_bind; [apply safely_ring_mmap|]; intros ?). apply safely_ret. }
    specialize (H w). destruct (wrap_ptr t pg len fd w) as [[a|e| | |] w1]; try exact H.
    refine (safe_trans _ _ _ _ H _). apply (safely_bind o (ignore (unmap_ring t pg len)) (fun _ => sout (E:=error) (A:=Z) (Err e))).
    - apply safely_ignore, safely_unmap_ring.
    - intros. apply safely_out.
  Qed.
  Lemma safely_map_ring clock len : safely o (map_ring t plat clock len).
  Proof.
    apply safely_bind; [apply safely_tmp_open|]. intros fd w. pose proof (safely_wrap_fd len fd w) as H.
    destruct (wrap_fd t len fd w) as [[a|e| | |] w1]; try exact H; exact (safe_trans _ _ _ _ H (safely_close fd w1)).
  Qed.
  Lemma safely_ring_new clock hint : safely o (ring_new t plat clock hint).
  Proof.
    apply safely_bind; [apply safely_out|]. intros len. apply safely_bind; [apply safely_map_ring|]. intros. apply safely_ret.
  Qed.
  Lemma safely_ring_drop a : safely o (ring_drop t a).
  Proof. apply safely_ignore, safely_unmap_ring. Qed.
End Frame.

(** ** Allocating a ring keeps the world well-formed and no file name changes *)
Definition files_same (w w' : world) : Prop := forall path, 0 <= path -> w_fs w' path = w_fs w path.
Definition wfly {E A} (m : ST E A) : Prop := forall w, wf w -> wf (snd (m w)) /\ files_same w (snd (m w)).

Lemma wfly_ret {E A} (a : A) : wfly (sret (E:=E) a).
Proof. intros w H. split; [exact H|intros x _; reflexivity]. Qed.
Lemma wfly_out {E A} (x : out E A) : wfly (sout x).
Proof. intros w H. split; [exact H|intros y _; reflexivity]. Qed.
Lemma files_trans w1 w2 w3 : files_same w1 w2 -> files_same w2 w3 -> files_same w1 w3.
Proof. intros H1 H2 x Hx. rewrite H2, H1; auto. Qed.
Lemma wfly_seq {E F A B} (m : ST E A) (k : ST F B) w : wfly k -> (wf (snd (m w)) /\ files_same w (snd (m w))) ->
  wf (snd (k (snd (m w)))) /\ files_same w (snd (k (snd (m w)))).
Proof. intros K [H1 H2]. destruct (K _ H1) as [K1 K2]. split; [exact K1|exact (files_trans _ _ _ H2 K2)]. Qed.
Lemma wfly_bind {E A B} (m : ST E A) (k : A -> ST E B) : wfly m -> (forall a, wfly (k a)) -> wfly (sbind m k).
Proof.
  intros H K w W. unfold sbind. specialize (H w W). destruct (m w) as [[a|e| | |] w1] eqn:E1; cbn in *; try exact H.
  destruct H as [H1 H2]. destruct (K a w1 H1) as [K1 K2]. split; [exact K1|exact (files_trans _ _ _ H2 K2)].
Qed.
Lemma wfly_os {A} op (m : ST Z A) : wfly m -> wfly (os_call op m).
Proof. intros H w W. unfold os_call. specialize (H w W). destruct (m w) as [[a|e| | |] w1]; exact H. Qed.
Lemma wf_set_orc w q : wf w -> wf (set_orc w q).
Proof. intros [A B C D]. split; assumption. Qed.
Lemma wfly_ask {A} (k : Z -> ST Z A) : (forall a, wfly (k a)) -> wfly (ask k).
Proof.
  intros H w W. unfold ask. destruct (w_orc w) as [|[e|a] q]; cbn.
  - split; [exact W|intros x _; reflexivity].
  - split; [apply wf_set_orc, W|intros x _; reflexivity].
  - destruct (H a (set_orc w q) (wf_set_orc _ _ W)) as [K1 K2]. split; [exact K1|exact K2].
Qed.
Lemma wf_id w : wf w -> wf w /\ files_same w w.
Proof. intros H. split; [exact H|intros x _; reflexivity]. Qed.

Section Wfly.
  Variable t : target.
  Variable plat : platform.
  Hypothesis Hbits : t_bits t <= 64.
  Hypothesis Hb0 : 0 < t_bits t.
  Hypothesis HP : 0 < t_page t.

  Lemma wfly_mmap fixed addr len pr shared anon fd off : wfly (sys_mmap t fixed addr len pr shared anon fd off).
  Proof.
    apply wfly_ask. intros a w W. destruct (Z.leb_spec len 0) as [|Hl]; [apply wf_id, W|]. destruct (_ || _); [apply wf_id, W|]. cbv zeta.
    destruct (range_ok _ _ _) eqn:Er; [|apply wf_id, W]. cbn [negb]. apply range_ok_iff in Er.
    assert (2 ^ t_bits t <= 2 ^ 64) by (apply Z.pow_le_mono_r; lia).
    assert (0 <= npages t len) by (apply Z.div_pos; lia). destruct (negb fixed && _); [apply wf_id, W|].
    pose proof W as [W1 W2 W3 W4]. unfold backing. destruct anon; cbn.
    - split; [|intros x _; reflexivity]. split; cbn [w_vm w_obj w_next w_fd w_fs set_vm set_next set_obj snd].
      + intros p e. destruct (in_pages _ _ p); [intros [= <-]; cbn; lia|]. intros He. apply W1 in He. lia.
      + intros fd' f Hf. apply W2 in Hf. lia.
      + intros path o Ho. apply W3 in Ho. lia.
      + intros o. unfold put. destruct (o =? w_next w); [cbn [o_size]; nia|apply W4].
    - destruct (w_fd w fd) as [f|] eqn:Ef; cbn; [|apply wf_id, W]. destruct (shared && pr_w pr && negb (fd_w f)); cbn; [apply wf_id, W|].
      split; [|intros x _; reflexivity]. split; cbn; try assumption.
      intros p e. destruct (in_pages _ _ p); [intros [= <-]; cbn; apply (W2 _ _ Ef)|apply W1].
  Qed.
  Lemma wfly_munmap addr len : wfly (sys_munmap t addr len).
  Proof.
    apply wfly_ask. intros a w W. destruct (_ || _); [apply wf_id, W|]. split; [|intros x _; reflexivity].
    pose proof W as [W1 W2 W3 W4]. split; cbn; try assumption. intros p e. destruct (in_pages _ _ p); [discriminate|apply W1].
  Qed.
  Lemma wfly_ftruncate fd sz : sz < 2 ^ 64 -> wfly (sys_ftruncate t fd sz).
  Proof.
    intros Hs. apply wfly_ask. intros a w W. destruct (Z.ltb_spec sz 0) as [L|L]; [apply wf_id, W|]. destruct (w_fd w fd) as [f|] eqn:Ef; [|apply wf_id, W].
    destruct (negb (fd_w f)); [apply wf_id, W|]. split; [|intros x _; reflexivity]. pose proof W as [W1 W2 W3 W4].
    unfold resize_obj. split; cbn; try assumption.
    - intros p e. destruct (w_vm w p) as [e0|] eqn:Ev; [|discriminate]. apply W1 in Ev. intros He.
      destruct (_ && _); injection He as <-; exact Ev.
    - intros o. unfold put. destruct (o =? fd_obj f); [cbn; lia|apply W4].
  Qed.
  Lemma wfly_close fd : wfly (sys_close fd).
  Proof.
    intros w W. split; [|intros x _; reflexivity]. pose proof W as [W1 W2 W3 W4]. split; cbn; try assumption.
    intros fd' f. unfold put. destruct (fd' =? fd); [discriminate|apply W2].
  Qed.
  Lemma wf_new w a g : wf w -> 0 <= a -> (forall path o, g path = Some o -> o < w_next w + 1) ->
    wf (set_fd (set_fs (set_next (set_obj w (put (w_obj w) (w_next w) {| o_size := 0; o_data := fun _ => 0; o_disk := fun _ => 0 |})) (w_next w + 1)) g)
         (put (w_fd w) a (Some {| fd_obj := w_next w; fd_w := true |}))).
  Proof.
    intros [W1 W2 W3 W4] Ha Hg. split; cbn.
    - intros p e He. apply W1 in He. lia.
    - intros fd f. unfold put. destruct (Z.eqb_spec fd a) as [->|]; [intros [= <-]; cbn; lia|]. intros Hf. apply W2 in Hf. lia.
    - exact Hg.
    - intros o. unfold put. destruct (o =? w_next w); [cbn; lia|apply W4].
  Qed.
  Lemma wfly_memfd : wfly sys_memfd.
  Proof.
    apply wfly_ask. intros a w W. destruct (new_fd_ok w a) eqn:N; [|apply wf_id, W]. cbn [negb]. cbv zeta.
    apply andb_true_iff in N as [N _]. apply Z.leb_le in N. split; [|intros x _; reflexivity].
    apply (wf_new w a (w_fs w) W N). intros path o Ho. apply (wf_fs _ W) in Ho. lia.
  Qed.
  Lemma wfly_open_new path : path < 0 -> wfly (sys_open t path true true true false).
  Proof.
    intros Hp. apply wfly_ask. intros a w W. destruct (new_fd_ok w a) eqn:N; [|apply wf_id, W]. cbn [negb].
    apply andb_true_iff in N as [N _]. apply Z.leb_le in N. destruct (w_fs w path); [apply wf_id, W|]. cbn [negb]. cbv zeta. split.
    - apply (wf_new w a _ W N). intros q o. unfold put. destruct (q =? path); [intros [= <-]; lia|]. intros Ho. apply (wf_fs _ W) in Ho. lia.
    - intros q Hq. cbn. unfold put. destruct (Z.eqb_spec q path); [lia|reflexivity].
  Qed.
  Lemma wfly_unlink path : path < 0 -> wfly (sys_shm_unlink path).
  Proof.
    intros Hp. apply wfly_ask. intros a w W. destruct (w_fs w path); [|apply wf_id, W]. pose proof W as [W1 W2 W3 W4]. split.
    - split; cbn; try assumption. intros q o. unfold put. destruct (q =? path); [discriminate|apply W3].
    - intros q Hq. cbn. unfold put. destruct (Z.eqb_spec q path); [lia|reflexivity].
  Qed.
  Lemma name_number_pos l : Forall (fun b => 0 <= b) l -> 0 <= name_number l.
  Proof. induction 1; cbn [name_number]; lia. Qed.
  Lemma shm_path_neg c : shm_path (name_for c) < 0.
  Proof.
    unfold shm_path. assert (0 <= name_number (name_for c)); [|lia]. apply name_number_pos. unfold name_for. apply Forall_app. split.
    - repeat constructor; lia.
    - assert (N : 0 <= c mod 10 ^ 9 mod 10000000 < 10000000) by (apply Z.mod_pos_bound; lia).
      destruct (pad_spec _ N) as (_ & F & _). cbv zeta in F. eapply Forall_impl; [|exact F]. cbn. lia.
  Qed.
  Lemma wfly_shm clock fuel : forall round pb, good_buf pb -> wfly (shm_loop t clock fuel round pb).
  Proof.
    induction fuel as [|fuel IH]; intros round pb G w W; [apply wf_id, W|]. cbn [shm_loop].
    rewrite shm_name_spec by exact G. destruct (clock round <? 0); [apply wf_id, W|].
    pose proof (shm_path_neg (clock round)) as Hn. pose proof (wfly_open_new _ Hn w W) as H.
    destruct (sys_open t _ true true true false w) as [[fd|e| | |] w1]; try exact H.
    - destruct H as [H1 H2]. destruct (wfly_unlink _ Hn w1 H1) as [K1 K2]. split; [exact K1|exact (files_trans _ _ _ H2 K2)].
    - cbv zeta. destruct (raw_os_error _) as [c|]; [|exact H]. destruct (c =? EEXIST); [|exact H].
      destruct H as [H1 H2]. destruct (IH (S round) _ (name_good (clock round)) w1 H1) as [K1 K2]. split; [exact K1|exact (files_trans _ _ _ H2 K2)].
  Qed.
  Lemma wfly_ring_mmap op fixed pg len shared anon fd : wfly (ring_mmap t op fixed pg len shared anon fd).
  Proof. apply wfly_os, wfly_mmap. Qed.
  Lemma wfly_unmap_ring pg len : wfly (unmap_ring t pg len).
  Proof. apply wfly_bind; [apply wfly_out|]. intros l. apply wfly_os, wfly_munmap. Qed.
  Lemma wfly_ignore m : wfly m -> wfly (ignore m).
  Proof. intros H w W. specialize (H w W). unfold ignore. destruct (m w) as [[a|e| | |] w1]; exact H. Qed.
  Lemma wfly_wrap_fd len fd : wfly (wrap_fd t len fd).
  Proof.
    apply wfly_bind; [apply wfly_out|]. intros full. apply wfly_bind; [apply wfly_ring_mmap|]. intros pg w W.
    assert (H : wfly (wrap_ptr t pg len fd)).
    { do 2 (apply wfly_bind; [apply wfly_ring_mmap|]; intros ?). apply wfly_ret. }
    specialize (H w W). destruct (wrap_ptr t pg len fd w) as [[a|e| | |] w1]; try exact H. destruct H as [H1 H2].
    destruct (wfly_bind (ignore (unmap_ring t pg len)) (fun _ => sout (E:=error) (A:=Z) (Err e))
      (wfly_ignore _ (wfly_unmap_ring pg len)) (fun _ => wfly_out _) w1 H1) as [K1 K2].
    split; [exact K1|exact (files_trans _ _ _ H2 K2)].
  Qed.
  Lemma signed_64 sz : as_signed t sz < 2 ^ 64 \/ 2 ^ t_bits t <= sz.
  Proof.
    assert (2 ^ t_bits t <= 2 ^ 64) by (apply Z.pow_le_mono_r; lia).
    unfold as_signed. destruct (Z.ltb_spec sz (2 ^ (t_bits t - 1))) as [L|L].
    - left. assert (2 ^ (t_bits t - 1) <= 2 ^ 64) by (apply Z.pow_le_mono_r; lia). lia.
    - destruct (Z_lt_le_dec sz (2 ^ t_bits t)); [left; lia|right; lia].
  Qed.
  Lemma wfly_map_ring clock len : len < 2 ^ t_bits t -> wfly (map_ring t plat clock len).
  Proof.
    intros Hl. apply wfly_bind.
    - apply wfly_bind.
      + unfold memfd_open. destruct plat; [apply wfly_os, wfly_memfd|]. intros w. apply wfly_shm, template_good.
      + intros fd w W. assert (Hs : as_signed t len < 2 ^ 64) by (destruct (signed_64 len); lia).
        pose proof (wfly_ftruncate fd (as_signed t len) Hs w W) as H.
        destruct (sys_ftruncate t fd (as_signed t len) w) as [[a|e| | |] w1]; try exact H. destruct H as [H1 H2].
        destruct (wfly_close fd w1 H1) as [K1 K2]. split; [exact K1|exact (files_trans _ _ _ H2 K2)].
    - intros fd w W. pose proof (wfly_wrap_fd len fd w W) as H.
      destruct (wrap_fd t len fd w) as [[a|e| | |] w1]; try exact H; destruct H as [H1 H2];
        destruct (wfly_close fd w1 H1) as [K1 K2]; (split; [exact K1|exact (files_trans _ _ _ H2 K2)]).
  Qed.
  Lemma wfly_ring_drop a : wfly (ring_drop t a).
  Proof. apply wfly_ignore, wfly_unmap_ring. Qed.
End Wfly.
