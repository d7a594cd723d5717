(** Proofs for ExecSpec.v: which permissions a page can get. *)
From Coq Require Import Lia.
From Verif Require Import Base ErrorModel RingSpec RingModel SizeModel OsModel OthersModel MapModel MapSpec ApiModel RingMapModel MemRingModel ProcModel ThreadModel
  MachModel MachProcModel MachThreadModel ExecSpec.

(** ** Code that uses memory by [peek] and [poke] only *)
Section Machine.
  Variable t : target.
  Variable W : Type.
  Variable peek : W -> Z -> out io_error byte.
  Variable poke : Z -> byte -> W -> out io_error unit * W.
  Variable K : W -> W -> Prop.
  Hypothesis K_refl : forall w, K w w.
  Hypothesis K_trans : forall a b c, K a b -> K b c -> K a c.
  Hypothesis K_poke : forall a b w, K w (snd (poke a b w)).

  Definition quietly {V A} (x : RM W V A) : Prop := forall s w, K w (snd (snd (x s w))).
  Lemma q_bind {V A B} (x : RM W V A) (f : A -> RM W V B) : quietly x -> (forall a, quietly (f a)) -> quietly (MemRingModel.mbind W x f).
  Proof.
    intros H F s w. unfold MemRingModel.mbind. specialize (H s w). destruct (x s w) as [[a|e| | |] [s1 w1]]; cbn [fst snd] in *; try exact H.
    exact (K_trans _ _ _ H (F a s1 w1)).
  Qed.
  Lemma q_ret {V A} (a : A) : quietly (MemRingModel.mret W (V:=V) a).
  Proof. intros s w. apply K_refl. Qed.
  Lemma q_out {V A} (f : V -> out io_error A) : quietly (MemRingModel.mout W f).
  Proof. intros s w. apply K_refl. Qed.
  Lemma q_panic {V A} : quietly (V:=V) (A:=A) (mpanic W).
  Proof. intros s w. apply K_refl. Qed.
  Lemma q_assign {V} (f : V -> out io_error V) : quietly (massign W f).
  Proof. intros s w. unfold massign. destruct (f s); apply K_refl. Qed.
  Lemma q_load {V} a n : quietly (V:=V) (mload W peek a n).
  Proof. intros s w. apply K_refl. Qed.
  Lemma q_stores d : forall a w, K w (snd (stores W poke a d w)).
  Proof.
    induction d as [|b d IH]; intros a w; [apply K_refl|]. cbn. pose proof (K_poke a b w) as H. destruct (poke a b w) as [[u|e| | |] w1]; cbn in *; try exact H.
    exact (K_trans _ _ _ H (IH (a + 1) w1)).
  Qed.
  Lemma q_store {V} a d : quietly (V:=V) (mstore W poke a d).
  Proof. intros s w. unfold mstore. pose proof (q_stores d a w) as H. destruct (stores W poke a d w) as [r w1]. exact H. Qed.
  Lemma q_blocked {V A} : quietly (V:=V) (A:=A) (fun s w => (Blocked, (s, w))).
  Proof. intros s w. apply K_refl. Qed.

  Section Traits.
    Context {V : Type}.
    Variable q : seq_ops W V.
    Hypothesis Hf : forall n, quietly (s_feed W V q n).
    Hypothesis Hc : forall n, quietly (s_consume W V q n).
    Ltac walk := repeat first [apply Hf | apply Hc | apply q_ret | apply q_out | apply q_panic | apply q_assign | apply q_load | apply q_store | apply q_blocked
      | apply q_bind; [|intros] ].
    Lemma q_peek max : quietly (m_peek t W peek q max).
    Proof. unfold m_peek. walk. destruct a as [a len]. walk. Qed.
    Lemma q_slice_store max i d : quietly (m_slice_store t W poke q max i d).
    Proof. unfold m_slice_store. walk. destruct a as [a len]. destruct (_ && _); walk. Qed.
    Lemma q_read_from n : quietly (read_from t W peek q n).
    Proof. unfold read_from. walk. destruct a as [a len]. walk. Qed.
    Lemma q_write_into b : quietly (write_into t W poke q b).
    Proof. unfold write_into. walk. destruct a as [a len]. walk. Qed.
    Lemma q_write_all n : forall b, quietly (write_all_loop t W poke q n b).
    Proof.
      induction n as [|n IH]; intros [|x b]; cbn [write_all_loop]; try apply q_ret; [apply q_blocked|].
      apply q_bind; [apply q_write_into|intros a]. destruct (a =? 0); [walk|apply IH].
    Qed.
    Lemma q_until n d : forall acc, quietly (read_until_loop t W peek q n d acc).
    Proof.
      induction n as [|n IH]; intros acc; cbn [read_until_loop]; [apply q_blocked|]. apply q_bind; [apply q_peek|intros a].
      destruct (find_byte d a); walk. destruct (_ =? 0); [walk|apply IH].
    Qed.
    Lemma q_put n : forall b, quietly (put_loop t W poke q n b).
    Proof.
      induction n as [|n IH]; intros [|x b]; cbn [put_loop]; walk. destruct a as [a len]. cbv zeta. walk. apply IH.
    Qed.
    Lemma q_put_slice b : quietly (put_slice t W poke q b).
    Proof. unfold put_slice. walk. destruct (_ <? _); [walk|apply q_put]. Qed.
  End Traits.

  Lemma q_kring o : quietly (kring_step t W peek poke o).
  Proof.
    assert (F : forall n, quietly (s_feed W kring (kring_ops t W) n)) by (intros n; apply q_assign).
    assert (C : forall n, quietly (s_consume W kring (kring_ops t W) n)) by (intros n; apply q_assign).
    destruct o; cbn [kring_step]; cbv zeta; (apply q_bind; [|intros; apply q_ret]).
    all: try (apply q_assign); try (apply q_write_into; assumption); try (apply q_write_all; assumption); try (apply q_read_from; assumption);
      try (apply F); try (apply C); try (apply q_slice_store; assumption); try (apply q_peek; assumption); try (apply q_until; assumption); apply q_put_slice; assumption.
  Qed.
  Lemma q_kiring o : quietly (kiring_step t W peek poke o).
  Proof.
    assert (F : forall n, quietly (s_feed W kiring (kiring_ops t W) n)) by (intros n; apply q_bind; [apply q_assign|intros; apply q_assign]).
    assert (C : forall n, quietly (s_consume W kiring (kiring_ops t W) n)) by (intros n; apply q_assign).
    destruct o; cbn [kiring_step]; cbv zeta; (apply q_bind; [|intros; apply q_ret]).
    all: try (apply q_write_into; assumption); try (apply q_read_from; assumption); try (apply F); try (apply C);
      try (apply q_slice_store; assumption); try (apply q_peek; assumption).
    unfold kiring_write_all. apply q_bind; [apply q_out|]. intros [a len]. apply q_bind; [apply q_out|]. intros tail.
    destruct (_ =? _); [|apply q_panic]. apply q_bind; [apply q_store|intros; apply F].
  Qed.
End Machine.

Section Exec.
  Variable t : target.
  Variable good : bool -> bool -> Prop.
  Hypothesis good_r : good false false.
  Hypothesis good_w : good true false.
  Definition allowed (p : protect) : Prop := good (prot_writes p) (prot_execs p).
  Notation K := (permissions good).

  Lemma k_refl w : K w w.
  Proof. intros p e H. right. eauto. Qed.
  Lemma k_trans a b c : K a b -> K b c -> K a c.
  Proof.
    intros H1 H2 p e H. destruct (H2 p e H) as [G|(e1 & E1 & W1 & X1)]; [auto|]. destruct (H1 p e1 E1) as [G|(e0 & E0 & W0 & X0)].
    - left. rewrite <- W1, <- X1. exact G.
    - right. exists e0. repeat split; congruence.
  Qed.
  Lemma k_same w w' : w_vm w' = w_vm w -> K w w'.
  Proof. intros E p e H. rewrite E in H. right. eauto. Qed.
  Lemma k_vm w f : (forall p e', f p = Some e' -> good (p_w e') (p_x e') \/ exists e, w_vm w p = Some e /\ p_w e = p_w e' /\ p_x e = p_x e') -> K w (set_vm w f).
  Proof. intros H p e' He. exact (H p e' He). Qed.

  Definition well {E A} (m : ST E A) : Prop := forall w, K w (snd (m w)).
  Lemma w_ret {E A} (a : A) : well (sret (E:=E) a).
  Proof. intros w. apply k_refl. Qed.
  Lemma w_out {E A} (x : out E A) : well (sout x).
  Proof. intros w. apply k_refl. Qed.
  Lemma w_bind {E A B} (m : ST E A) (k : A -> ST E B) : well m -> (forall a, well (k a)) -> well (sbind m k).
  Proof.
    intros H F w. unfold sbind. specialize (H w). destruct (m w) as [[a|e| | |] w1]; cbn in *; try exact H. exact (k_trans _ _ _ H (F a w1)).
  Qed.
  Lemma w_os {A} op (m : ST Z A) : well m -> well (os_call op m).
  Proof. intros H w. unfold os_call. specialize (H w). destruct (m w) as [[a|e| | |] w1]; exact H. Qed.
  Lemma w_io {A} (m : ST io_error A) : well m -> well (io_call m).
  Proof. intros H w. unfold io_call. specialize (H w). destruct (m w) as [[a|e| | |] w1]; exact H. Qed.
  Lemma w_ask {A} (k : Z -> ST Z A) : (forall a, well (k a)) -> well (ask k).
  Proof.
    intros H w. unfold ask. destruct (w_orc w) as [|[e|a] q]; cbn; [apply k_refl|apply k_same; reflexivity|].
    apply (k_trans _ (set_orc w q)); [apply k_same; reflexivity|apply H].
  Qed.

  (** ** System calls *)
  Lemma w_mmap fixed addr len pr shared anon fd off : good (pr_w pr) (pr_x pr) -> well (sys_mmap t fixed addr len pr shared anon fd off).
  Proof.
    intros G. apply w_ask. intros a w. destruct (len <=? 0); [apply k_refl|]. destruct (_ || _); [apply k_refl|]. cbv zeta.
    destruct (negb (range_ok _ _ _)); [apply k_refl|]. destruct (negb fixed && _); [apply k_refl|].
    assert (F : forall w1 f, w_vm w1 = w_vm w -> (forall p, f p = w_vm w1 p \/ exists o i m, f p = Some (entry o i pr shared m)) -> K w (set_vm w1 f)).
    { intros w1 f E H p e' He. cbn in He. destruct (H p) as [X|(o & i & m & X)]; rewrite X in He.
      - rewrite E in He. right. eauto.
      - injection He as <-. left. exact G. }
    destruct (backing t shared anon (pr_w pr) fd len w) as [[[o maxw] w1]|e| | |] eqn:Eb; try apply k_refl.
    cbn [snd]. apply F.
    - unfold backing in Eb. destruct anon; [injection Eb as _ _ <-; reflexivity|]. destruct (w_fd w fd); [|discriminate Eb].
      destruct (_ && _); [discriminate Eb|]. injection Eb as _ _ <-. reflexivity.
    - intros p. destruct (in_pages _ _ p); eauto 6.
  Qed.
  Lemma w_munmap addr len : well (sys_munmap t addr len).
  Proof. apply w_ask. intros a w. destruct (_ || _); [apply k_refl|]. apply k_vm. intros p e'. destruct (in_pages _ _ p); [discriminate|eauto]. Qed.
  Lemma w_on_range addr len ok f : (forall e, good (p_w (f e)) (p_x (f e)) \/ (p_w (f e) = p_w e /\ p_x (f e) = p_x e)) -> well (on_range t addr len ok f).
  Proof.
    intros H. apply w_ask. intros a w. destruct (negb _); [apply k_refl|]. cbv zeta. destruct (negb _); [apply k_refl|].
    destruct (fold_left _ _ _); try apply k_refl. apply k_vm. intros p e'. destruct (in_pages _ _ p); [|eauto].
    destruct (w_vm w p) as [e|]; cbn; [|discriminate]. intros [= <-]. destruct (H e) as [G|[A B]]; [auto|right; exists e; auto].
  Qed.
  Lemma w_msync addr len sync : well (sys_msync t addr len sync).
  Proof.
    apply w_ask. intros a w. destruct (negb _); [apply k_refl|]. cbv zeta. destruct (negb _); [apply k_refl|].
    destruct sync; [apply k_same; reflexivity|apply k_refl].
  Qed.
  Lemma k_resize o sz w : K w (resize_obj t o sz w).
  Proof.
    unfold resize_obj. intros p e'. cbn. destruct (w_vm w p) as [e|]; [|discriminate]. intros He. right. exists e. split; [reflexivity|].
    destruct (_ && _); injection He as <-; auto.
  Qed.
  Lemma w_ftruncate fd sz : well (sys_ftruncate t fd sz).
  Proof. apply w_ask. intros a w. destruct (sz <? 0); [apply k_refl|]. destruct (w_fd w fd); [|apply k_refl]. destruct (negb _); [apply k_refl|apply k_resize]. Qed.
  Lemma w_fstat fd : well (sys_fstat fd).
  Proof. apply w_ask. intros a w. destruct (w_fd w fd); apply k_refl. Qed.
  Lemma w_close fd : well (sys_close fd).
  Proof. intros w. apply k_same. reflexivity. Qed.
  Lemma w_memfd : well sys_memfd.
  Proof. apply w_ask. intros a w. destruct (negb _); [apply k_refl|]. apply k_same. reflexivity. Qed.
  Lemma w_open path wr creat excl trunc : well (sys_open t path wr creat excl trunc).
  Proof.
    apply w_ask. intros a w. destruct (negb _); [apply k_refl|]. destruct (w_fs w path) as [o|].
    - destruct (creat && excl); [apply k_refl|]. cbv zeta. destruct (trunc && _); [|apply k_same; reflexivity].
      apply (k_trans _ (resize_obj t o 0 w)); [apply k_resize|apply k_same; reflexivity].
    - destruct (negb creat); [apply k_refl|apply k_same; reflexivity].
  Qed.
  Lemma w_unlink path : well (sys_shm_unlink path).
  Proof. apply w_ask. intros a w. destruct (w_fs w path); [apply k_same; reflexivity|apply k_refl]. Qed.
  Lemma w_store {E} a b : well (store (E:=E) t a b).
  Proof.
    intros w. unfold store. destruct (w_vm w (a / t_page t)) as [e|] eqn:Ev; [|apply k_refl].
    destruct (negb _); [apply k_refl|]. cbv zeta. destruct (_ <=? _); [apply k_refl|]. destruct (p_shared e).
    - destruct (_ <? _); [apply k_same; reflexivity|apply k_refl].
    - apply k_vm. intros p e'. unfold put. destruct (Z.eqb_spec p (a / t_page t)) as [->|]; [|eauto]. intros [= <-]. right. exists e. auto.
  Qed.

  (** ** os/unix and map.rs *)
  Lemma w_map_file fd off len p : allowed p -> well (os_map_file t fd off len p).
  Proof. intros G. destruct p; apply w_os, w_mmap; exact G. Qed.
  Lemma w_map_anon len p : allowed p -> well (os_map_anon t len p).
  Proof. intros G. destruct p; apply w_os, w_mmap; exact G. Qed.
  Lemma w_unmap pg len : well (os_unmap t pg len).
  Proof. apply w_os, w_munmap. Qed.
  Lemma w_protect pg len p : allowed p -> well (os_protect t pg len p).
  Proof. intros G. destruct p; apply w_os, w_on_range; intros e; left; exact G. Qed.
  Lemma w_flush pg len md : well (os_flush t pg len md).
  Proof. apply w_os, w_msync. Qed.
  Lemma w_advise pg len adv : well (os_advise t pg len adv).
  Proof. apply w_os, w_on_range. intros e. right. destruct adv; auto. Qed.
  Lemma w_lock pg len : well (os_lock t pg len).
  Proof. apply w_os, w_on_range. intros e. right. auto. Qed.
  Lemma w_unlock pg len : well (os_unlock t pg len).
  Proof. apply w_os, w_on_range. intros e. right. auto. Qed.
  Lemma w_whole m f : (forall p l, well (f p l)) -> well (whole t m f).
  Proof. intros H. apply w_bind; [apply w_out|]. intros b. apply H. Qed.
  Lemma w_ranged op m off len f : (forall p l, well (f p l)) -> well (ranged t op m off len f).
  Proof.
    intros H. apply w_bind; [apply w_out|]. intros e. destruct (_ <? _); [apply w_out|]. apply w_bind; [apply w_out|]. intros b. apply H.
  Qed.
  Lemma w_convert m f : well f -> well (convert m f).
  Proof. intros H w. specialize (H w). unfold convert. destruct (f w) as [[[]|e| | |] w1]; exact H. Qed.
  Lemma w_set_len fd sz : well (file_set_len t fd sz).
  Proof.
    intros w. unfold file_set_len. destruct (_ <? _); [apply k_refl|]. pose proof (w_ftruncate fd sz w) as H.
    destruct (sys_ftruncate t fd sz w) as [[a|e| | |] w1]; exact H.
  Qed.
  Lemma w_file_len fd : well (file_len fd).
  Proof. intros w. unfold file_len. pose proof (w_fstat fd w) as H. destruct (sys_fstat fd w) as [[a|e| | |] w1]; exact H. Qed.
  Lemma w_file_open oo path : well (file_open t oo path).
  Proof.
    intros w. unfold file_open. destruct (_ && _); [apply k_refl|].
    pose proof (w_open path (oo_write oo) (oo_create oo || oo_create_new oo) (oo_create_new oo) (oo_truncate oo && negb (oo_create_new oo)) w) as H.
    destruct (sys_open _ _ _ _ _ _ w) as [[a|e| | |] w1]; exact H.
  Qed.
  Lemma w_resize_to fd sz : well (resize_to t fd sz).
  Proof. apply w_bind; [apply w_io, w_set_len|]. intros. apply w_ret. Qed.
  Lemma w_size_part op fd flen : well (size_part t op fd flen).
  Proof. unfold size_part. destruct (op_resize op) as [|sz|sz|sz]; try destruct (_ <? _); (apply w_ret || apply w_resize_to). Qed.
  Lemma w_map_part op fd flen : allowed (op_protect op) -> well (map_part t op fd flen).
  Proof.
    intros G. unfold map_part. destruct (_ <? _); [apply w_ret|]. apply w_bind; [apply w_out|]. intros mx.
    destruct (extent_len _ _) as [len|]; [|apply w_ret].
    do 3 (apply w_bind; [apply w_out|]; intros ?). apply w_bind; [apply w_map_file, G|]. intros. apply w_ret.
  Qed.
  Lemma w_map_if o fd : allowed (op_protect o) -> well (map_if t o fd).
  Proof.
    intros G. apply w_bind; [apply w_bind; [apply w_io, w_file_len|intros; apply w_ret]|]. intros l1. apply w_bind.
    { destruct (_ && _); [apply w_resize_to|apply w_ret]. }
    intros l2. apply w_bind; [exact (w_size_part o fd l2)|]. intros l3. exact (w_map_part o fd l3 G).
  Qed.
  Lemma w_map_ o fd : allowed (op_protect o) -> well (map_ t o fd).
  Proof. intros G. apply w_bind; [apply w_map_if, G|]. intros [m|]; [apply w_ret|apply w_out]. Qed.
  Lemma w_closing {A} fd (m : ST error A) : well m -> well (closing fd m).
  Proof.
    intros H w. unfold closing. specialize (H w). destruct (m w) as [[a|e| | |] w1]; cbn [snd] in *; try exact H; exact (k_trans _ _ _ H (w_close fd w1)).
  Qed.
  Lemma w_open_if o path : allowed (op_protect o) -> well (open_if t o path).
  Proof. intros G. apply w_bind; [apply w_io, w_file_open|]. intros f. apply w_bind; [apply w_closing, w_map_if, G|]. intros. apply w_ret. Qed.
  Lemma w_alloc op : allowed (op_protect op) -> well (alloc t op).
  Proof.
    intros G. apply w_bind; [apply w_out|]. intros off. apply w_bind.
    { destruct (op_len op); apply w_out || apply w_ret. }
    intros len. apply w_bind; [apply w_out|]. intros tot. apply w_bind; [apply w_map_anon, G|]. intros. apply w_ret.
  Qed.
  Lemma w_drop m : well (drop_map t m).
  Proof.
    intros w. unfold drop_map. destruct (_ <? _); [|apply k_refl]. destruct (size_bounds _ _ _ _) as [[p l]|e| | |]; try apply k_refl.
    pose proof (w_unmap p l w) as H. destruct (os_unmap t p l w) as [[a|e| | |] w1]; exact H.
  Qed.
  Lemma k_others e w : K w (others t e w).
  Proof.
    destruct e as [path|path|from to|path sz|path sz|path off d sync]; cbn [others]; unfold at_name; try (apply k_same; reflexivity).
    - destruct (w_fs w path); apply k_same; reflexivity.
    - destruct (w_fs w from); apply k_same; reflexivity.
    - destruct (w_fs w path); [|apply k_refl]. destruct (_ <? _); [apply k_resize|apply k_refl].
    - destruct (w_fs w path); [|apply k_refl]. destruct (_ <? _); [apply k_resize|apply k_refl].
    - destruct (w_fs w path); apply k_same; reflexivity.
  Qed.

  Definition call_allowed (c : call) : Prop := forall o, call_options c = Some o -> allowed (op_protect o).
  Lemma k_step c a : call_allowed c -> K (a_w a) (a_w (snd (step t c a))).
  Proof.
    intros Hs.
    assert (U : forall y : out error unit * world, K (a_w a) (snd y) -> K (a_w a) (a_w (snd (unit_call a y)))) by (intros [r w1] H; exact H).
    assert (Wm : forall k f, (forall l, K (a_w a) (a_w (snd (f l)))) -> K (a_w a) (a_w (snd (with_map a k f)))).
    { intros k f H. unfold with_map. destruct (a_live a k) as [l|]; [apply H|apply k_refl]. }
    destruct c as [mut op path|mut op fd|mut op|fd|k|k|k i|k i b|k md|k off len md|k adv|k off len adv|k|k off len|k|k off len|k|o' pg|oe]; cbn [step].
    - pose proof (w_open_if op path (Hs op eq_refl) (a_w a)) as H. destruct (open_if t op path (a_w a)) as [[[[m|] f]|e| | |] w1]; exact H.
    - pose proof (w_map_if op fd (Hs op eq_refl) (a_w a)) as H. destruct (map_if t op fd (a_w a)) as [[[m|]|e| | |] w1]; exact H.
    - pose proof (w_alloc op (Hs op eq_refl) (a_w a)) as H. destruct (alloc t op (a_w a)) as [[m|e| | |] w1]; exact H.
    - apply w_close.
    - apply Wm. intros l. destruct (l_mut l); [apply k_refl|].
      assert (H : well (into_map_mut t (l_map l))) by (apply w_convert, w_bind; [apply w_out|intros b; apply w_protect; exact good_w]).
      specialize (H (a_w a)). destruct (into_map_mut t (l_map l) (a_w a)) as [[m|[e m]| | |] w1]; exact H.
    - apply Wm. intros l. destruct (negb (l_mut l)); [apply k_refl|].
      assert (H : well (into_map t (l_map l))) by (apply w_convert, w_bind; [apply w_out|intros b; apply w_protect; exact good_w]).
      specialize (H (a_w a)). destruct (into_map t (l_map l) (a_w a)) as [[m|[e m]| | |] w1]; exact H.
    - apply Wm. intros l. unfold map_get. destruct (_ && _); [|apply k_refl]. destruct (OsModel.load _ _ _); apply k_refl.
    - apply Wm. intros l. destruct (l_mut l); [|apply k_refl]. apply U. unfold map_set. destruct (_ && _); [apply w_store|apply k_refl].
    - apply Wm. intros l. destruct (l_mut l); [|apply k_refl]. apply U, w_whole. intros. apply w_flush.
    - apply Wm. intros l. destruct (l_mut l); [|apply k_refl]. apply U, w_ranged. intros. apply w_flush.
    - apply Wm. intros l. apply U, w_whole. intros. apply w_advise.
    - apply Wm. intros l. apply U, w_ranged. intros. apply w_advise.
    - apply Wm. intros l. apply U, w_whole. apply w_lock.
    - apply Wm. intros l. apply U, w_ranged. apply w_lock.
    - apply Wm. intros l. apply U, w_whole. apply w_unlock.
    - apply Wm. intros l. apply U, w_ranged. apply w_unlock.
    - apply Wm. intros l. pose proof (w_drop (l_map l) (a_w a)) as H. destruct (drop_map t (l_map l) (a_w a)) as [[y|e| | |] w1]; exact H.
    - apply k_same. reflexivity.
    - apply k_others.
  Qed.

  (** ** Rings *)
  Lemma w_ring_mmap op fixed pg len shared anon fd : well (ring_mmap t op fixed pg len shared anon fd).
  Proof. apply w_os, w_mmap. exact good_w. Qed.
  Lemma w_unmap_ring pg len : well (unmap_ring t pg len).
  Proof. apply w_bind; [apply w_out|]. intros l. apply w_unmap. Qed.
  Lemma w_ignore m : well m -> well (ignore m).
  Proof. intros H w. specialize (H w). unfold ignore. destruct (m w) as [[a|e| | |] w1]; exact H. Qed.
  Lemma w_shm clock n : forall r pb, well (shm_loop t clock n r pb).
  Proof.
    induction n as [|n IH]; intros r pb w; cbn [shm_loop]; [apply k_refl|].
    destruct (shm_name (clock r) pb) as [[name pb']|e| | |]; try apply k_refl.
    pose proof (w_open (shm_path name) true true true false w) as H. destruct (sys_open t (shm_path name) true true true false w) as [[fd|e| | |] w1]; cbn [snd] in *; try exact H.
    - exact (k_trans _ _ _ H (w_unlink _ w1)).
    - destruct (raw_os_error _) as [c|]; [|exact H]. destruct (c =? EEXIST); [|exact H]. exact (k_trans _ _ _ H (IH _ _ w1)).
  Qed.
  Lemma w_memfd_open plat clock : well (memfd_open t plat clock).
  Proof. unfold memfd_open. destruct plat; [apply w_os, w_memfd|]. intros w. apply w_shm. Qed.
  Lemma w_map_ring plat clock len : well (map_ring t plat clock len).
  Proof.
    assert (Wf : forall fd, well (wrap_fd t len fd)).
    { intros fd. apply w_bind; [apply w_out|]. intros full. apply w_bind; [apply w_ring_mmap|]. intros pg w.
      assert (H : well (wrap_ptr t pg len fd)) by (apply w_bind; [apply w_ring_mmap|]; intros; apply w_bind; [apply w_ring_mmap|]; intros; apply w_ret).
      specialize (H w). destruct (wrap_ptr t pg len fd w) as [[a|e| | |] w1]; try exact H. cbn [snd] in H.
      apply (k_trans _ _ _ H). apply (w_bind (ignore (unmap_ring t pg len))); [apply w_ignore, w_unmap_ring|]. intros. apply w_out. }
    apply w_bind.
    { apply w_bind; [apply w_memfd_open|]. intros fd w. pose proof (w_ftruncate fd (as_signed t len) w) as H.
      destruct (sys_ftruncate t fd (as_signed t len) w) as [[a|e| | |] w1]; exact H. }
    intros fd w. specialize (Wf fd w). destruct (wrap_fd t len fd w) as [[a|e| | |] w1]; cbn [snd] in *; try exact Wf; exact (k_trans _ _ _ Wf (w_close fd w1)).
  Qed.
  Lemma w_ring_new plat clock hint : well (ring_new t plat clock hint).
  Proof. apply w_bind; [apply w_out|]. intros len. apply w_bind; [apply w_map_ring|]. intros. apply w_ret. Qed.

  Definition pcall_allowed (c : pcall) : Prop := match c with PMap c => call_allowed c | _ => True end.
  Lemma k_pstep plat c p : pcall_allowed c -> K (pc_w p) (pc_w (snd (pstep t plat c p))).
  Proof.
    intros Hc. unfold pc_w.
    assert (New : forall mk hint clock, K (a_w (pc_a p)) (a_w (pc_a (snd (new_ring t plat mk hint clock p))))).
    { intros mk hint clock. unfold new_ring. pose proof (w_ring_new plat clock hint (pc_w p)) as H.
      destruct (ring_new t plat clock hint (pc_w p)) as [[a|e| | |] w1]; exact H. }
    destruct c as [c|hint clock|hint clock|k o|k o|k]; cbn [pstep].
    - pose proof (k_step c (pc_a p) Hc) as H. destruct (step t c (pc_a p)) as [r a]. exact H.
    - apply New.
    - apply New.
    - destruct (pc_ring p k) as [[s|s]|]; try apply k_refl.
      pose proof (q_kring t world (load t) (store t) K k_refl k_trans (fun a b w => w_store a b w) o s (pc_w p)) as H.
      destruct (kring_step t world (load t) (store t) o s (pc_w p)) as [r [s' w']]. exact H.
    - destruct (pc_ring p k) as [[s|s]|]; try apply k_refl.
      pose proof (q_kiring t world (load t) (store t) K k_refl k_trans (fun a b w => w_store a b w) o s (pc_w p)) as H.
      destruct (kiring_step t world (load t) (store t) o s (pc_w p)) as [r [s' w']]. exact H.
    - destruct (pc_ring p k) as [h|]; [|apply k_refl]. pose proof (w_ignore _ (w_unmap_ring (ra_ptr (h_alloc h)) (ra_len (h_alloc h))) (pc_w p)) as H.
      unfold ring_drop. destruct (ignore _ (pc_w p)) as [r w']. exact H.
  Qed.

  (** ** Calls in progress *)
  Definition pend_allowed (pd : pending) : Prop :=
    match pd with
    | MOpen _ o _ | MStat _ _ o _ | MCut _ _ o _ _ | MSize _ _ o _ _ | MMap _ _ o _ _ => allowed (op_protect o)
    | _ => True
    end.
  Lemma then_world {A} (fail : out error A -> outcome) x (next : A -> outcome) : snd (then_ fail x next) = snd x.
  Proof. destruct x as [[a|e| | |] w]; reflexivity. Qed.
  Lemma k_advance plat pd w : pend_allowed pd -> K w (snd (advance t plat pd w)).
  Proof.
    intros G. destruct pd; cbn [advance pend_allowed] in *; rewrite ?then_world.
    - apply (w_io _ (w_file_open _ _)).
    - apply (w_bind (io_call (file_len fd))); [apply w_io, w_file_len|intros; apply w_ret].
    - destruct (_ && _); [apply w_resize_to|apply w_ret].
    - apply w_size_part.
    - apply w_map_part, G.
    - apply w_close.
    - destruct plat; rewrite ?then_world; [apply (w_os _ _ w_memfd)|]. destruct (shm_name (clock round) pb) as [[name pb']|e| | |]; try apply k_refl.
      pose proof (w_open (shm_path name) true true true false w) as H. destruct (sys_open t (shm_path name) true true true false w) as [[fd|e| | |] w1]; try exact H.
      cbv zeta. destruct (raw_os_error _) as [c|]; [|exact H]. destruct (c =? EEXIST); exact H.
    - apply w_unlink.
    - pose proof (w_ftruncate fd (as_signed t len) w) as H. destruct (sys_ftruncate t fd (as_signed t len) w) as [[a|e| | |] w1]; exact H.
    - destruct (umul (E:=error) t len 2) as [full|e| | |]; try apply k_refl. rewrite then_world. apply w_ring_mmap.
    - pose proof (w_ring_mmap RingPrimary true pg len true false fd w) as H. destruct (ring_mmap t RingPrimary true pg len true false fd w) as [[a|e| | |] w1]; exact H.
    - pose proof (w_ring_mmap RingSecondary true (ptr_add t pg len) len true false fd w) as H.
      destruct (ring_mmap t RingSecondary true (ptr_add t pg len) len true false fd w) as [[a|e| | |] w1]; exact H.
    - pose proof (w_ignore _ (w_unmap_ring pg len) w) as H. destruct (ignore (unmap_ring t pg len) w) as [[a|e0| | |] w1]; exact H.
    - destruct r; apply w_close.
  Qed.
  Lemma advance_allowed plat pd w pd' w' : pend_allowed pd -> advance t plat pd w = (More pd', w') -> pend_allowed pd'.
  Proof.
    intros G E.
    assert (T : forall A own fd (x : out error A * world) next, (forall a, next a = More pd' -> pend_allowed pd') -> then_ (map_fail own fd) x next = (More pd', w') -> pend_allowed pd').
    { intros A own fd [[a|e| | |] w1] next Hn Et; cbn [then_] in Et; apply (f_equal fst) in Et; cbn [fst] in Et; [exact (Hn a Et)| | | |];
        (unfold map_fail in Et; destruct own; [injection Et as <-; exact Logic.I|discriminate Et]). }
    destruct pd; cbn [advance pend_allowed] in *.
    - destruct (io_call (file_open t (op_open o) path) w) as [[a|e| | |] w1]; cbn [then_] in E; injection E as E _; try discriminate E. subst pd'. exact G.
    - refine (T _ _ _ _ _ _ E). intros a [= <-]. exact G.
    - refine (T _ _ _ _ _ _ E). intros a [= <-]. exact G.
    - refine (T _ _ _ _ _ _ E). intros a [= <-]. exact G.
    - refine (T _ _ _ _ _ _ E). intros [m|]; discriminate.
    - discriminate E.
    - destruct plat.
      + destruct (os_call MemoryFd sys_memfd w) as [[a|e| | |] w1]; cbn [then_] in E; injection E as E _; try discriminate E. subst pd'. exact Logic.I.
      + destruct (shm_name (clock round) pb) as [[name pb']|e| | |]; try discriminate E.
        destruct (sys_open t (shm_path name) true true true false w) as [[fd|e| | |] w1]; try discriminate E; [injection E as <- _; exact Logic.I|].
        cbv zeta in E. destruct (raw_os_error _) as [c|]; [|discriminate E]. destruct (c =? EEXIST); [injection E as <- _; exact Logic.I|discriminate E].
    - injection E as <- _. exact Logic.I.
    - destruct (sys_ftruncate t fd (as_signed t len) w) as [[a|e| | |] w1]; try discriminate E; injection E as <- _; exact Logic.I.
    - destruct (umul (E:=error) t len 2) as [full|e| | |]; try discriminate E.
      destruct (ring_mmap t RingAllocate false 0 full false true (-1) w) as [[a|e| | |] w1]; injection E as <- _; exact Logic.I.
    - destruct (ring_mmap t RingPrimary true pg len true false fd w) as [[a|e| | |] w1]; try discriminate E; injection E as <- _; exact Logic.I.
    - destruct (ring_mmap t RingSecondary true (ptr_add t pg len) len true false fd w) as [[a|e| | |] w1]; try discriminate E; injection E as <- _; exact Logic.I.
    - destruct (ignore (unmap_ring t pg len) w) as [[a|e0| | |] w1]; try discriminate E; injection E as <- _; exact Logic.I.
    - destruct r; discriminate E.
  Qed.

  Definition event_allowed (e : event) : Prop := forall o, event_options e = Some o -> allowed (op_protect o).
  Definition pool_allowed (s : tsys) : Prop := forall tid pd, ts_pool s tid = Some pd -> pend_allowed pd.
  Lemma tstep_allowed plat e s : event_allowed e -> pool_allowed s ->
    K (pc_w (ts_p s)) (pc_w (ts_p (snd (tstep t plat e s)))) /\ pool_allowed (snd (tstep t plat e s)).
  Proof.
    intros He Hp.
    assert (Put : forall p tid x, match x with Some pd => pend_allowed pd | None => True end -> pool_allowed (set_pool s p tid x)).
    { intros p tid x Hx i pd. cbn. unfold put. destruct (i =? tid); [intros ->; exact Hx|exact (Hp i pd)]. }
    destruct e as [c|tid mut o path|tid mut o fd|tid inf hint clock|tid]; cbn [tstep].
    - pose proof (k_pstep plat c (ts_p s)) as H. destruct (pstep t plat c (ts_p s)) as [x p]. cbn [snd ts_p] in *. split; [|exact Hp].
      apply H. destruct c; try exact Logic.I. exact He.
    - unfold begin. destruct (ts_pool s tid); [split; [apply k_refl|exact Hp]|]. split; [apply k_refl|]. apply Put. exact (He o eq_refl).
    - unfold begin. destruct (ts_pool s tid); [split; [apply k_refl|exact Hp]|]. split; [apply k_refl|]. apply Put. exact (He o eq_refl).
    - unfold begin. destruct (ts_pool s tid); [split; [apply k_refl|exact Hp]|]. destruct (size_round t (size_alloc t) hint); cbn [snd]; try (split; [apply k_refl|exact Hp]).
      split; [apply k_refl|]. apply Put. exact Logic.I.
    - destruct (ts_pool s tid) as [pd|] eqn:E; [|split; [apply k_refl|exact Hp]]. unfold go.
      pose proof (k_advance plat pd (pc_w (ts_p s)) (Hp tid pd E)) as H.
      destruct (advance t plat pd (pc_w (ts_p s))) as [oc w'] eqn:Ea. cbn [snd] in H.
      destruct oc as [pd'|mut own o fd m|inf pg len|r]; cbn [snd]; (split; [exact H|]); apply Put; try exact Logic.I.
      exact (advance_allowed plat pd _ _ _ (Hp tid pd E) Ea).
  Qed.
  Theorem trun_allowed plat h : forall s, Forall event_allowed h -> pool_allowed s -> K (pc_w (ts_p s)) (pc_w (ts_p (snd (trun t plat h s)))).
  Proof.
    induction h as [|e h IH]; intros s F Hp; [apply k_refl|]. apply Forall_cons_iff in F as [He F]. cbn [trun].
    destruct (tstep_allowed plat e s He Hp) as [H1 H2]. specialize (IH _ F H2). destruct (tstep t plat e s) as [x s1]. cbn [snd] in *.
    destruct (trun t plat h s1) as [xs s2]. exact (k_trans _ _ _ H1 IH).
  Qed.

  (** ** macOS *)
  Definition mwell {E A} (m : MT E A) : Prop := forall s, K (mc_w s) (mc_w (snd (m s))).
  Lemma mw_world {E A} (m : ST E A) : well m -> mwell (on_world m).
  Proof. intros H s. unfold on_world. specialize (H (mc_w s)). destruct (m (mc_w s)) as [r w]. exact H. Qed.
  Lemma mw_out {E A} (x : out E A) : mwell (MachModel.mout x).
  Proof. intros s. apply k_refl. Qed.
  Lemma mw_bind {E A B} (m : MT E A) (k : A -> MT E B) : mwell m -> (forall a, mwell (k a)) -> mwell (MachModel.mbind m k).
  Proof. intros H F s. unfold MachModel.mbind. specialize (H s). destruct (m s) as [[a|e| | |] s1]; cbn in *; try exact H. exact (k_trans _ _ _ H (F a s1)). Qed.
  Lemma mw_kern {A} op (m : MT Z A) : mwell m -> mwell (kern_call op m).
  Proof. intros H s. unfold kern_call. specialize (H s). destruct (m s) as [[a|e| | |] s1]; exact H. Qed.
  Lemma w_enter first n o idx w0 w : w_vm w0 = w_vm w -> K w (enter first n o idx w0).
  Proof. intros E p e'. cbn. destruct (in_pages first n p); [intros [= <-]; left; exact good_w|]. rewrite E. eauto. Qed.
  Lemma w_anywhere size : well (vm_allocate_anywhere t size).
  Proof. apply w_ask. intros a w. destruct (size =? 0); [apply k_refl|]. destruct (_ || _); [apply k_refl|]. apply w_enter. reflexivity. Qed.
  Lemma w_fixed addr size : well (vm_allocate_fixed t addr size).
  Proof. apply w_ask. intros a w. destruct (size =? 0); [apply k_refl|]. destruct (negb _); [apply k_refl|]. apply w_enter. reflexivity. Qed.
  Lemma w_deallocate addr size : well (vm_deallocate t addr size).
  Proof.
    apply w_ask. intros a w. destruct (size =? 0); [apply k_refl|]. apply k_vm. intros p e'. destruct (in_pages _ _ p); [discriminate|eauto].
  Qed.
  Lemma mw_entry size addr : mwell (make_memory_entry t size addr).
  Proof.
    intros s. unfold make_memory_entry, ask. destruct (w_orc (mc_w s)) as [|[e|a] q]; cbn.
    - apply k_refl.
    - apply k_same. reflexivity.
    - destruct (mc_ports s a); [apply k_same; reflexivity|]. destruct (size =? 0); [apply k_same; reflexivity|].
      destruct (one_object _ _ _) as [[o i]|]; apply k_same; reflexivity.
  Qed.
  Lemma mw_map addr size port : mwell (vm_map_fixed t addr size port).
  Proof.
    intros s. unfold vm_map_fixed. apply mw_world, w_ask. intros a w. destruct (mc_ports s port); [|apply k_refl]. destruct (_ || _); [apply k_refl|].
    apply w_enter. reflexivity.
  Qed.
  Lemma mw_cleanup {A} addr len (m : MT error A) : mwell m -> mwell (or_cleanup t addr len m).
  Proof.
    intros H s. unfold or_cleanup. specialize (H s). destruct (m s) as [[a|e| | |] s1]; cbn [snd] in *; try exact H.
    destruct (umul (E:=error) t 2 len) as [l|e1| | |]; cbn [snd]; try exact H. exact (k_trans _ _ _ H (mw_world _ (w_deallocate addr l) s1)).
  Qed.
  Lemma mw_ring_new hint : mwell (mach_ring_new t hint).
  Proof.
    apply mw_bind; [apply mw_out|]. intros len. apply mw_bind; [|intros; apply (mw_out (Ret _))]. unfold mach_map_ring.
    apply mw_bind; [apply mw_out|]. intros full. apply mw_bind; [apply mw_kern, mw_world, w_anywhere|]. intros addr.
    apply mw_bind; [apply mw_cleanup, mw_kern, mw_world, w_fixed|]. intros addr1. apply mw_bind; [apply mw_cleanup, mw_kern, mw_entry|]. intros [size port].
    apply mw_bind; [apply mw_out|]. intros half. apply mw_bind; [apply mw_cleanup, mw_kern, mw_map|]. intros. apply (mw_out (Ret _)).
  Qed.
  Lemma mw_ring_drop r : mwell (mach_ring_drop t r).
  Proof.
    intros s. unfold mach_ring_drop. assert (H : mwell (mach_unmap_ring t (ra_ptr r) (ra_len r))).
    { apply mw_bind; [apply mw_out|]. intros l. apply mw_kern, mw_world, w_deallocate. }
    specialize (H s). destruct (mach_unmap_ring t (ra_ptr r) (ra_len r) s) as [[a|e| | |] s1]; exact H.
  Qed.
  Lemma k_mstep c s : pcall_allowed c -> K (pc_w (mp_p s)) (pc_w (mp_p (snd (mstep t c s)))).
  Proof.
    intros Hc.
    assert (New : forall mk hint, K (pc_w (mp_p s)) (pc_w (mp_p (snd (mach_new t mk hint s))))).
    { intros mk hint. unfold mach_new. pose proof (mw_ring_new hint (mp_mach s)) as H. destruct (mach_ring_new t hint (mp_mach s)) as [[a|e| | |] m]; exact H. }
    destruct c as [c|hint clock|hint clock|k o|k o|k]; cbn [mstep].
    - pose proof (k_pstep Anonymous (PMap c) (mp_p s) Hc) as H. destruct (pstep t Anonymous (PMap c) (mp_p s)) as [x p]. exact H.
    - apply New.
    - apply New.
    - pose proof (k_pstep Anonymous (PCall k o) (mp_p s) Hc) as H. destruct (pstep t Anonymous (PCall k o) (mp_p s)) as [x p]. exact H.
    - pose proof (k_pstep Anonymous (PICall k o) (mp_p s) Hc) as H. destruct (pstep t Anonymous (PICall k o) (mp_p s)) as [x p]. exact H.
    - destruct (pc_ring (mp_p s) k) as [h|]; [|apply k_refl]. pose proof (mw_ring_drop (h_alloc h) (mp_mach s)) as H.
      destruct (mach_ring_drop t (h_alloc h) (mp_mach s)) as [r m]. exact H.
  Qed.
  Lemma k_madvance pd s : K (mc_w s) (mc_w (snd (madvance t pd s))).
  Proof.
    destruct pd; cbn [madvance].
    - destruct (umul (E:=error) t 2 len) as [full|e| | |]; try apply k_refl.
      pose proof (mw_kern RingAllocate _ (mw_world _ (w_anywhere full)) s) as H. destruct (kern_call RingAllocate (on_world (vm_allocate_anywhere t full)) s) as [[a|e| | |] s1]; exact H.
    - pose proof (mw_kern RingPrimary _ (mw_world _ (w_fixed addr len)) s) as H. destruct (kern_call RingPrimary (on_world (vm_allocate_fixed t addr len)) s) as [[a|e| | |] s1]; exact H.
    - pose proof (mw_kern RingEntry _ (mw_entry len addr) s) as H. destruct (kern_call RingEntry (make_memory_entry t len addr) s) as [[[a b]|e| | |] s1]; exact H.
    - destruct (uadd (E:=error) t addr size) as [half|e| | |]; try apply k_refl.
      pose proof (mw_kern RingSecondary _ (mw_map half size port) s) as H. destruct (kern_call RingSecondary (vm_map_fixed t half size port) s) as [[a|e| | |] s1]; exact H.
    - destruct (umul (E:=error) t 2 len) as [l|e1| | |]; try apply k_refl. exact (mw_world _ (w_deallocate addr l) s).
  Qed.
  Lemma mtstep_allowed e s : event_allowed e -> pool_allowed (ms_t s) ->
    K (pc_w (ms_p s)) (pc_w (ms_p (snd (mtstep t e s)))) /\ pool_allowed (ms_t (snd (mtstep t e s))).
  Proof.
    intros He Hp.
    assert (Px : K (pc_w (ms_p s)) (pc_w (ms_p (snd (on_posix (tstep t Anonymous e (ms_t s)) s)))) /\ pool_allowed (ms_t (snd (on_posix (tstep t Anonymous e (ms_t s)) s)))).
    { pose proof (tstep_allowed Anonymous e (ms_t s) He Hp) as H. unfold on_posix. destruct (tstep t Anonymous e (ms_t s)) as [x s1]. exact H. }
    destruct e as [c|tid mut o path|tid mut o fd|tid inf hint clock|tid]; cbn [mtstep].
    - pose proof (k_mstep c {| mp_p := ms_p s; mp_ports := ms_ports s |}) as H. destruct (mstep t c {| mp_p := ms_p s; mp_ports := ms_ports s |}) as [x m].
      split; [|exact Hp]. apply H. destruct c; try exact Logic.I. exact He.
    - destruct (ms_ring s tid); [split; [apply k_refl|exact Hp]|exact Px].
    - destruct (ms_ring s tid); [split; [apply k_refl|exact Hp]|exact Px].
    - destruct (ms_ring s tid), (ts_pool (ms_t s) tid); try (split; [apply k_refl|exact Hp]).
      destruct (size_round (E:=error) t (size_alloc t) hint); cbn [snd]; split; try apply k_refl; exact Hp.
    - destruct (ms_ring s tid) as [pd|]; [|exact Px]. unfold mgo. pose proof (k_madvance pd (ms_mach s)) as H.
      destruct (madvance t pd (ms_mach s)) as [[pd'|inf pg len|r] m]; cbn [snd] in *; split; try exact H; exact Hp.
  Qed.
  Theorem mtrun_allowed h : forall s, Forall event_allowed h -> pool_allowed (ms_t s) -> K (pc_w (ms_p s)) (pc_w (ms_p (snd (mtrun t h s)))).
  Proof.
    induction h as [|e h IH]; intros s F Hp; [apply k_refl|]. apply Forall_cons_iff in F as [He F]. cbn [mtrun].
    destruct (mtstep_allowed e s He Hp) as [H1 H2]. specialize (IH _ F H2). destruct (mtstep t e s) as [x s1]. cbn [snd] in *.
    destruct (mtrun t h s1) as [xs s2]. exact (k_trans _ _ _ H1 IH).
  Qed.
End Exec.
