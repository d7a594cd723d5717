(** Every access through a map on Windows is decided: what may be written is
    what the section allowed, in every state a program reaches. *)
From Coq Require Import Lia.
From Verif Require Import Base Spec ErrorModel SizeModel OsModel OthersModel MapModel MapSpec RingMapModel RingMapSpec RingSpec SizeProofs OsProofs
  MapProofs MapCreate MapOps ApiModel ApiSpec MapClaims SpanModel SpanSpec SpanProofs ExactClaims ExactWrites MemRingModel ProcModel OthersProofs OthersClaims
  WinModel WinSpec WinProofs WinClaims WinCalls WinMapModel WinMapSpec WinSpace WinOthers WinMapProofs WinThings WinHist WinMapClaims
  WinProcModel WinProcSpec WinThreadModel WinThreadSpec WinOthersClaims.

(** Only pages that may be written are writable. *)
Definition legal (w : world) : Prop := forall p e, w_vm w p = Some e -> p_w e = true -> p_maxw e = true.
Definition law (s : win) : Prop := legal (n_w s).
Definition keeps_law {E A} (m : WT E A) : Prop := forall s, law s -> law (snd (m s)).
Definition keeps_legal {E A} (m : ST E A) : Prop := forall w, legal w -> legal (snd (m w)).

(** ** Rings: what a store keeps, every call on a ring keeps. *)
Section RingCode.
  Variable t : target.
  Variable W : Type.
  Variable peek : W -> Z -> out io_error byte.
  Variable poke : Z -> byte -> W -> out io_error unit * W.
  Variable Q : W -> Prop.
  Hypothesis Hpoke : forall a b w, Q w -> Q (snd (poke a b w)).
  Notation RM := (RM W).
  Definition rm_keeps {V A} (x : RM V A) : Prop := forall v w, Q w -> Q (snd (snd (x v w))).

  Lemma rm_ret {V A} (a : A) : rm_keeps (V:=V) (mret W a).
  Proof. intros v w H. exact H. Qed.
  Lemma rm_out {V A} (f : V -> out io_error A) : rm_keeps (mout W f).
  Proof. intros v w H. exact H. Qed.
  Lemma rm_panic {V A} : rm_keeps (V:=V) (A:=A) (mpanic W).
  Proof. intros v w H. exact H. Qed.
  Lemma rm_bind {V A B} (x : RM V A) (f : A -> RM V B) : rm_keeps x -> (forall a, rm_keeps (f a)) -> rm_keeps (mbind W x f).
  Proof. intros Hx Hf v w H. unfold mbind. specialize (Hx v w H). destruct (x v w) as [[a|e| | |] [v' w']]; try exact Hx. exact (Hf a v' w' Hx). Qed.
  Lemma rm_assign {V} (f : V -> out io_error V) : rm_keeps (massign W f).
  Proof. intros v w H. unfold massign. destruct (f v); exact H. Qed.
  Lemma rm_load {V} a n : rm_keeps (V:=V) (mload W peek a n).
  Proof. intros v w H. exact H. Qed.
  Lemma stores_keep d : forall a w, Q w -> Q (snd (stores W poke a d w)).
  Proof.
    induction d as [|b d IH]; intros a w H; [exact H|]. cbn [stores]. pose proof (Hpoke a b w H) as K.
    destruct (poke a b w) as [[u|e| | |] w']; try exact K. exact (IH (a + 1) w' K).
  Qed.
  Lemma rm_store {V} a d : rm_keeps (V:=V) (mstore W poke a d).
  Proof. intros v w H. unfold mstore. pose proof (stores_keep d a w H) as K. destruct (stores W poke a d w) as [r w']. exact K. Qed.

  Create HintDb rm.
  Hint Resolve rm_ret rm_out rm_panic rm_bind rm_assign rm_load rm_store : rm.
  Ltac rm := repeat (match goal with
    | |- rm_keeps (mbind _ _ _) => apply rm_bind; [|intros]
    | |- rm_keeps (let '(_, _) := ?p in _) => destruct p
    | |- rm_keeps (match ?x with _ => _ end) => destruct x
    end; auto with rm); auto with rm.

  Section Ops.
    Context {V : Type}.
    Variable q : seq_ops W V.
    Hypothesis Hfeed : forall n, rm_keeps (s_feed W V q n).
    Hypothesis Hcons : forall n, rm_keeps (s_consume W V q n).
    Lemma rm_write_into d : rm_keeps (write_into t W poke q d).
    Proof using Hpoke Hfeed. unfold write_into, as_write_slice. rm. Qed.
    Lemma rm_read_from n : rm_keeps (read_from t W peek q n).
    Proof using Hcons. unfold read_from, as_read_slice. rm. Qed.
    Lemma rm_peek n : rm_keeps (m_peek t W peek q n).
    Proof using. unfold m_peek, as_read_slice. rm. Qed.
    Lemma rm_slice_store m i d : rm_keeps (m_slice_store t W poke q m i d).
    Proof using Hpoke. unfold m_slice_store, as_write_slice. rm. Qed.
    Lemma rm_write_all n : forall d, rm_keeps (write_all_loop t W poke q n d).
    Proof using Hpoke Hfeed.
      induction n as [|n IH]; intros d; destruct d as [|b d]; cbn [write_all_loop]; try (intros v w H; exact H).
      apply rm_bind; [apply rm_write_into|]. intros m. destruct (m =? 0); [apply rm_ret|apply IH].
    Qed.
    Lemma rm_until n : forall d acc, rm_keeps (read_until_loop t W peek q n d acc).
    Proof using Hcons.
      induction n as [|n IH]; intros d acc; cbn [read_until_loop]; [intros v w H; exact H|].
      apply rm_bind; [apply rm_peek|]. intros av. destruct (_ d av); (apply rm_bind; [apply Hcons|]); intros _; [apply rm_ret|].
      destruct (_ =? 0); [apply rm_ret|apply IH].
    Qed.
    Lemma rm_put n : forall d, rm_keeps (put_loop t W poke q n d).
    Proof using Hpoke Hfeed.
      induction n as [|n IH]; intros d; destruct d as [|b d]; cbn [put_loop]; try (intros v w H; exact H).
      apply rm_bind; [apply rm_out|]. intros [a len]. apply rm_bind; [apply rm_store|]. intros _. apply rm_bind; [apply Hfeed|]. intros _. apply IH.
    Qed.
    Lemma rm_put_slice d : rm_keeps (put_slice t W poke q d).
    Proof using Hpoke Hfeed. unfold put_slice. apply rm_bind; [apply rm_out|]. intros r. destruct (_ <? _); [apply rm_panic|apply rm_put]. Qed.
  End Ops.

  Lemma kring_keeps o v w : Q w -> Q (snd (snd (kring_step t W peek poke o v w))).
  Proof.
    assert (F : forall n, rm_keeps (s_feed W kring (kring_ops t W) n)) by (intros n; apply rm_assign).
    assert (C : forall n, rm_keeps (s_consume W kring (kring_ops t W) n)) by (intros n; apply rm_assign).
    apply (fun H : rm_keeps (kring_step t W peek poke o) => H v w). destruct o; unfold kring_step; cbv zeta; (apply rm_bind; [|intros; apply rm_ret]);
      auto using rm_write_into, rm_read_from, rm_peek, rm_slice_store, rm_write_all, rm_until, rm_put_slice. apply rm_assign.
  Qed.
  Lemma kiring_keeps o v w : Q w -> Q (snd (snd (kiring_step t W peek poke o v w))).
  Proof.
    assert (F : forall n, rm_keeps (s_feed W kiring (kiring_ops t W) n)) by (intros n; apply rm_bind; [|intros]; apply rm_assign).
    assert (C : forall n, rm_keeps (s_consume W kiring (kiring_ops t W) n)) by (intros n; apply rm_assign).
    apply (fun H : rm_keeps (kiring_step t W peek poke o) => H v w). destruct o; unfold kiring_step; cbv zeta; (apply rm_bind; [|intros; apply rm_ret]);
      auto using rm_write_into, rm_read_from, rm_peek, rm_slice_store.
    unfold kiring_write_all, as_write_slice. apply rm_bind; [apply rm_out|]. intros [a len]. apply rm_bind; [apply rm_out|]. intros tl.
    destruct (_ =? _); [|apply rm_panic]. apply rm_bind; [apply rm_store|]. intros _. apply F.
  Qed.
End RingCode.

Section Law.
  Variable t : target.
  Hypothesis Ht : good_target t.
  Notation P := (t_page t).

  (** ** The calls of OsModel.v that Windows shares *)
  Lemma same_legal w w' : w_vm w' = w_vm w -> legal w -> legal w'.
  Proof. intros E H p e. rewrite E. apply H. Qed.
  Lemma resize_legal o sz w : legal w -> legal (resize_obj t o sz w).
  Proof.
    intros H p e. unfold resize_obj. cbn. destruct (w_vm w p) as [x|] eqn:E; [|discriminate]. specialize (H p x E).
    destruct (_ && _); intros [= <-]; exact H.
  Qed.
  Lemma store_legal {E} a b : keeps_legal (OsModel.store (E:=E) t a b).
  Proof.
    intros w H. unfold OsModel.store. destruct (w_vm w (a / P)) as [x|] eqn:Ex; [|exact H].
    destruct (negb _); [exact H|]. cbv zeta. destruct (_ <=? _); [exact H|]. destruct (p_shared x).
    - cbn. destruct (_ <? _); [apply (same_legal w); [reflexivity|exact H]|exact H].
    - cbn. intros p e. cbn. unfold put. destruct (Z.eqb_spec p (a / P)) as [->|N]; [|apply H]. intros [= <-]. exact (H _ x Ex).
  Qed.
  Lemma others_legal e w : legal w -> legal (others t e w).
  Proof.
    intros H. destruct e; cbn [others]; unfold at_name; repeat match goal with |- legal (match ?x with _ => _ end) => destruct x end;
      try exact H; try (apply (same_legal w); [reflexivity|exact H]); apply resize_legal, H.
  Qed.
  Lemma sbind_legal {E A B} (m : ST E A) (k : A -> ST E B) : keeps_legal m -> (forall a, keeps_legal (k a)) -> keeps_legal (sbind m k).
  Proof. intros Hm Hk w H. unfold sbind. specialize (Hm w H). destruct (m w) as [[a|e| | |] w']; try exact Hm. exact (Hk a w' Hm). Qed.
  Lemma io_legal {A} (m : ST io_error A) : keeps_legal m -> keeps_legal (io_call m).
  Proof. intros Hm w H. unfold io_call. specialize (Hm w H). destruct (m w) as [[a|e| | |] w']; exact Hm. Qed.
  Lemma ask_legal {A} (k : Z -> ST Z A) : (forall a, keeps_legal (k a)) -> keeps_legal (ask k).
  Proof. intros Hk w H. unfold ask. destruct (w_orc w) as [|[e|a] r]; [exact H|exact H|]. apply Hk. exact H. Qed.
  Lemma len_legal fd : keeps_legal (file_len fd).
  Proof.
    intros w H. unfold file_len. assert (K : legal (snd (sys_fstat fd w))).
    { apply ask_legal; [|exact H]. intros a w1 H1. destruct (w_fd w1 fd); exact H1. }
    destruct (sys_fstat fd w) as [[a|e| | |] w']; exact K.
  Qed.
  Lemma set_len_legal fd sz : keeps_legal (file_set_len t fd sz).
  Proof.
    intros w H. unfold file_set_len. destruct (_ <? _); [exact H|]. assert (K : legal (snd (sys_ftruncate t fd sz w))).
    { apply ask_legal; [|exact H]. intros a w1 H1. destruct (_ <? _); [exact H1|]. destruct (w_fd w1 fd) as [f|]; [|exact H1].
      destruct (negb _); [exact H1|]. apply resize_legal, H1. }
    destruct (sys_ftruncate t fd sz w) as [[a|e| | |] w']; exact K.
  Qed.
  Lemma resize_to_legal fd sz : keeps_legal (resize_to t fd sz).
  Proof. apply sbind_legal; [apply io_legal, set_len_legal|]. intros a w H. exact H. Qed.
  Lemma open_legal oo path : keeps_legal (file_open t oo path).
  Proof.
    intros w H. unfold file_open. destruct (_ && _); [exact H|].
    assert (K : forall wr c x tr, legal (snd (sys_open t path wr c x tr w))).
    { intros wr c x tr. apply ask_legal; [|exact H]. intros a w1 H1. destruct (negb _); [exact H1|]. destruct (w_fs w1 path) as [o|].
      - destruct (_ && _); [exact H1|]. cbv zeta. destruct (_ && _); cbn [snd]; [|exact H1]. exact (resize_legal o 0 w1 H1).
      - destruct (negb _); exact H1. }
    specialize (K (oo_write oo) (oo_create oo || oo_create_new oo) (oo_create_new oo) (oo_truncate oo && negb (oo_create_new oo))).
    destruct (sys_open _ _ _ _ _ _ w) as [[a|e| | |] w']; exact K.
  Qed.

  (** ** The calls of Windows *)
  Lemma law_lift {E A} (m : ST E A) : keeps_legal m -> keeps_law (lift m).
  Proof. intros Hm s H. unfold lift. specialize (Hm (n_w s) H). destruct (m (n_w s)) as [r w]. exact Hm. Qed.
  Lemma law_bind {E A B} (m : WT E A) (k : A -> WT E B) : keeps_law m -> (forall a, keeps_law (k a)) -> keeps_law (wbind m k).
  Proof. intros Hm Hk s H. unfold wbind. specialize (Hm s H). destruct (m s) as [[a|e| | |] s']; try exact Hm. exact (Hk a s' Hm). Qed.
  Lemma law_ret {E A} (a : A) : keeps_law (E:=E) (wret a).
  Proof. intros s H. exact H. Qed.
  Lemma law_out {E A} (x : out E A) : keeps_law (wout x).
  Proof. intros s H. exact H. Qed.
  Lemma law_call {A} c (k : Z -> (Z -> bool) -> WT Z A) : (forall a f, keeps_law (k a f)) -> keeps_law (call c k).
  Proof.
    intros Hk s H. unfold call, ask. destruct (w_orc (n_w s)) as [|[e|a] r]; [exact H|exact H|].
    match goal with |- context [k a ?f ?x] => pose proof (Hk a f x H) as K; destruct (k a f x) as [[y|e| | |] s']; exact K end.
  Qed.
  Lemma law_win_call {A} op (m : WT Z A) : keeps_law m -> keeps_law (win_call op m).
  Proof. intros Hm s H. unfold win_call. specialize (Hm s H). destruct (m s) as [[a|e| | |] s']; exact Hm. Qed.
  Lemma law_no_result {A} (m : WT Z A) : keeps_law m -> keeps_law (no_result m).
  Proof. intros Hm s H. unfold no_result. specialize (Hm s H). destruct (m s) as [[a|e| | |] s']; exact Hm. Qed.
  Lemma law_scoped {A} h (m : WT error A) : keeps_law m -> keeps_law (scoped h m).
  Proof. intros Hm s H. unfold scoped. specialize (Hm s H). destruct (m s) as [r s']. exact Hm. Qed.
  Lemma law_drop_pages f n s : law s -> law (drop_pages f n s).
  Proof. intros H p e. unfold drop_pages. cbn. destruct (in_pages f n p); [discriminate|apply H]. Qed.
  Lemma law_range g f n w : (forall e, p_w (g e) = true -> p_maxw (g e) = true \/ p_w (g e) = p_w e /\ p_maxw (g e) = p_maxw e) ->
    legal w -> legal (map_range g f n w).
  Proof.
    intros Hg H p e. unfold map_range. cbn. destruct (in_pages f n p); [|apply H]. destruct (w_vm w p) as [x|] eqn:E; [|discriminate].
    intros [= <-] Hw. destruct (Hg x Hw) as [K|[K1 K2]]; [exact K|]. rewrite K2. rewrite K1 in Hw. exact (H p x E Hw).
  Qed.

  Lemma law_create f pr hi lo : keeps_law (create_mapping t f pr hi lo).
  Proof.
    apply law_call. intros h _ s H. cbv zeta. destruct (n_sec s h); [exact H|]. destruct (_ <=? _); [exact H|]. destruct f as [fd|].
    - destruct (w_fd (n_w s) fd); [|exact H]. repeat match goal with |- law (snd (if ?b then _ else _)) => destruct b end; exact H.
    - destruct (_ || _); exact H.
  Qed.
  Lemma law_view h acc hi lo len a : keeps_law (map_view t h acc hi lo len a).
  Proof.
    apply law_call. intros b f s H. cbv zeta. destruct (n_sec s h) as [c|]; [|exact H].
    destruct (negb _ || negb _); [exact H|]. destruct (_ || _); [exact H|].
    destruct (match acc with MapReadWrite => negb (sc_w c) | _ => false end) eqn:Ew; [exact H|]. destruct (_ || _); [exact H|].
    intros p e. cbn [snd with_view with_w n_w set_vm w_vm]. destruct (in_pages _ _ p); [|apply H]. intros [= <-]. cbn.
    destruct acc; cbn in *; try discriminate; intros _; [destruct (sc_w c); [reflexivity|discriminate]|apply orb_true_r].
  Qed.
  Lemma law_unmap a : keeps_law (unmap_view t a).
  Proof. apply law_call. intros _ _ s H. destruct (n_view s a) as [n|]; [|exact H]. exact (law_drop_pages (a / P) n s H). Qed.
  Lemma law_alloc len : keeps_law (virtual_alloc t len).
  Proof.
    apply law_call. intros a f s H. cbv zeta. destruct (_ <=? _); [exact H|]. destruct (_ || _); [exact H|].
    intros p e. cbn [snd with_resv with_w n_w set_vm w_vm]. destruct (in_pages _ _ p); [|apply H]. intros [= <-]. discriminate.
  Qed.
  Lemma law_free a : keeps_law (virtual_free t a).
  Proof. apply law_call. intros _ _ s H. destruct (n_resv s a) as [n|]; [|exact H]. exact (law_drop_pages (a / P) n s H). Qed.
  Lemma law_pages c a len k : (forall f n, keeps_law (k f n)) -> keeps_law (on_pages t c a len k).
  Proof. intros Hk. apply law_call. intros _ _ s H. cbv zeta. destruct (_ <=? _); [exact H|]. destruct (mapped_range _ _ _); [apply Hk|]; exact H. Qed.
  Lemma law_protect a len p : keeps_law (virtual_protect t a len p).
  Proof.
    apply law_pages. intros f n s H. destruct (forallb _ _) eqn:F; [|exact H].
    intros q e. unfold change, map_range. cbn [snd with_w n_w set_vm w_vm]. destruct (in_pages f n q) eqn:I; [|apply H].
    destruct (w_vm (n_w s) q) as [x|] eqn:E; [|discriminate]. intros [= <-]. cbn [set_prot p_w p_maxw]. intros Hw.
    rewrite forallb_forall in F. assert (In q (page_seq f n)) as X.
    { apply page_seq_In. apply andb_true_iff in I as [I1 I2]. apply Z.leb_le in I1. apply Z.ltb_lt in I2. lia. }
    specialize (F q X). rewrite E, Hw in F. exact F.
  Qed.
  Lemma law_lock b f n : keeps_law (change (set_lock b) f n).
  Proof. intros s H. apply law_range; [|exact H]. intros e _. right. split; reflexivity. Qed.
  Lemma law_vlock a len : keeps_law (virtual_lock t a len).
  Proof. apply law_pages. intros f n. apply law_lock. Qed.
  Lemma law_vunlock a len : keeps_law (virtual_unlock t a len).
  Proof. apply law_pages. intros f n s H. destruct (forallb _ _); [apply law_lock|]; exact H. Qed.
  Lemma law_flush_view a len : keeps_law (flush_view t a len).
  Proof. intros s0 H0. apply law_pages; [|exact H0]. intros f n s H. exact H. Qed.
  Lemma law_flush_file fd : keeps_law (flush_file fd).
  Proof. apply law_call. intros _ _ s H. destruct (w_fd (n_w s) fd); [|exact H]. destruct (negb _); exact H. Qed.
  Lemma law_close h : keeps_law (close_handle h).
  Proof. intros s H. exact H. Qed.

  (** ** windows.rs *)
  Lemma law_handle op f pr len : keeps_law (handle_new t op f pr len).
  Proof. apply law_win_call, law_create. Qed.
  Lemma law_handle_view h op acc off len a : keeps_law (handle_view t h op acc off len a).
  Proof. apply law_win_call, law_view. Qed.
  Lemma law_map_ring_handle h len pg : keeps_law (map_ring_handle t h len pg).
  Proof.
    apply law_bind; [apply law_handle_view|]. intros a s H. pose proof (law_handle_view h RingSecondary MapReadWrite 0 len (ptr_add t pg len) s H) as K.
    destruct (handle_view _ _ _ _ _ _ _ s) as [[x|e| | |] s']; try exact K.
    apply law_bind; [apply law_no_result, law_unmap|intros; apply law_out|exact K].
  Qed.
  Lemma law_reserve len : keeps_law (reserve t len).
  Proof. apply law_bind; [apply law_win_call, law_alloc|]. intros pg. apply law_bind; [apply law_no_result, law_free|intros; apply law_ret]. Qed.
  Lemma law_ring_loop more : forall h len full, keeps_law (ring_loop t more h len full).
  Proof.
    induction more as [|more IH]; intros h len full; cbn [ring_loop]; (apply law_bind; [apply law_reserve|]); intros pg s H;
      pose proof (law_map_ring_handle h len pg s H) as K; destruct (map_ring_handle t h len pg s) as [[x|e| | |] s']; try exact K.
    apply IH, K.
  Qed.
  Lemma law_ring_new hint : keeps_law (win_ring_new t hint).
  Proof.
    apply law_bind; [apply law_out|]. intros len. apply law_bind; [|intros; apply law_ret].
    apply law_bind; [apply law_out|]. intros full. apply law_bind; [apply law_handle|]. intros h. apply law_scoped, law_ring_loop.
  Qed.
  Lemma law_ring_drop r : keeps_law (win_ring_drop t r).
  Proof.
    intros s H. unfold win_ring_drop. assert (K : law (snd (win_unmap_ring t (ra_ptr r) (ra_len r) s))).
    { apply law_bind; [apply law_win_call, law_unmap|intros; apply law_no_result, law_unmap|exact H]. }
    destruct (win_unmap_ring t (ra_ptr r) (ra_len r) s) as [[x|e| | |] s']; exact K.
  Qed.
  Lemma law_map_file fd off len p : keeps_law (win_map_file t fd off len p).
  Proof. unfold win_map_file. destruct (protect_pair p) as [pr acc]. apply law_bind; [apply law_handle|]. intros h. apply law_scoped, law_handle_view. Qed.
  Lemma law_map_anon len p : keeps_law (win_map_anon t len p).
  Proof. unfold win_map_anon. destruct (protect_pair p) as [pr acc]. apply law_bind; [apply law_handle|]. intros h. apply law_scoped, law_handle_view. Qed.

  (** ** src/map.rs *)
  Lemma law_size o fd flen : keeps_law (lift match op_resize o with
                      | ExtExact sz => resize_to t fd sz
                      | ExtMin sz => if flen <? sz then resize_to t fd sz else sret flen
                      | ExtMax sz => if sz <? flen then resize_to t fd sz else sret flen
                      | ExtEnd => sret flen
                      end).
  Proof. apply law_lift. destruct (op_resize o) as [|sz|sz|sz]; try (destruct (_ <? _)); try apply resize_to_legal; intros w H; exact H. Qed.
  Lemma law_stat fd : keeps_law (lift (do* l <- io_call (file_len fd); sret (as_usize t l))).
  Proof. apply law_lift, sbind_legal; [apply io_legal, len_legal|]. intros a w H. exact H. Qed.
  Lemma law_trunc (b : bool) fd flen : keeps_law (lift (if b then resize_to t fd 0 else sret flen)).
  Proof. apply law_lift. destruct b; [apply resize_to_legal|intros w H; exact H]. Qed.
  Lemma law_map_if o fd : keeps_law (wmap_if t o fd).
  Proof.
    unfold wmap_if. cbv zeta. apply law_bind; [apply law_stat|]. intros f1. apply law_bind; [apply law_trunc|]. intros f2.
    apply law_bind; [apply law_size|]. intros f3. destruct (_ <? _); [apply law_ret|]. apply law_bind; [apply law_out|]. intros mx.
    destruct (extent_len _ _); [|apply law_ret]. repeat (apply law_bind; [apply law_out|]; intros). apply law_bind; [apply law_map_file|intros; apply law_ret].
  Qed.
  Lemma law_wclosing {A} fd (m : WT error A) : keeps_law m -> keeps_law (wclosing fd m).
  Proof. intros Hm s H. unfold wclosing. specialize (Hm s H). destruct (m s) as [[a|e| | |] s']; exact Hm. Qed.
  Lemma law_open_if o path : keeps_law (wopen_if t o path).
  Proof.
    apply law_bind; [apply law_lift, io_legal, open_legal|]. intros f. apply law_bind; [apply law_wclosing, law_map_if|]. intros m. apply law_ret.
  Qed.
  Lemma law_walloc o : keeps_law (walloc t o).
  Proof.
    apply law_bind; [apply law_out|]. intros off. apply law_bind; [destruct (op_len o); first [apply law_out|apply law_ret]|].
    intros len. apply law_bind; [apply law_out|]. intros total. apply law_bind; [apply law_map_anon|intros; apply law_ret].
  Qed.
  Lemma law_whole m f : (forall p l, keeps_law (f p l)) -> keeps_law (wwhole t m f).
  Proof. intros Hf. apply law_bind; [apply law_out|]. intros b. apply Hf. Qed.
  Lemma law_ranged op m off len f : (forall p l, keeps_law (f p l)) -> keeps_law (wranged t op m off len f).
  Proof. intros Hf. apply law_bind; [apply law_out|]. intros e. destruct (_ <? _); [apply law_out|]. apply law_bind; [apply law_out|]. intros b. apply Hf. Qed.
  Lemma law_convert m r : keeps_law r -> keeps_law (wconvert m r).
  Proof. intros Hm s H. unfold wconvert. specialize (Hm s H). destruct (r s) as [[a|e| | |] s']; exact Hm. Qed.
  Lemma law_win_flush p fd l mode : keeps_law (win_flush t p fd l mode).
  Proof. apply law_bind; [apply law_win_call, law_flush_view|]. intros _. destruct mode; first [apply law_win_call, law_flush_file|apply law_ret]. Qed.
  Lemma law_drop m : keeps_law (wdrop t m).
  Proof.
    intros s H. unfold wdrop. destruct (0 <? _); [|exact H]. destruct (size_bounds t _ _ _) as [[p l]|e| | |]; try exact H.
    assert (K : law (snd (win_unmap t p l s))).
    { unfold win_unmap. pose proof (law_unmap p s H) as K. destruct (unmap_view t p s) as [[a|e| | |] s']; exact K. }
    destruct (win_unmap t p l s) as [[a|e| | |] s']; exact K.
  Qed.
  Lemma law_set m i b : keeps_law (wset t m i b).
  Proof. apply law_lift. intros w H. unfold map_set. destruct (_ && _); [apply store_legal|]; exact H. Qed.
  Lemma law_ring_set r i b : keeps_law (wring_set t r i b).
  Proof. apply law_lift. intros w H. destruct (_ && _); [apply store_legal|]; exact H. Qed.

  (** ** Programs.  A [MapMut] of a writable protection has asked for write
      access last. *)
  Definition may (x : thing) : Prop := match x with TMap v => v_mut v = true -> prot_writes (v_prot v) = true -> v_w v = true | TRing _ _ => True end.
  Record lawful (g : prog) : Prop := { lf_law : law (g_s g); lf_may : forall k x, g_tab g k = Some x -> may x }.

  Lemma lf_set g s : lawful g -> law s -> lawful (g_set g s).
  Proof. intros [L M] H. split; assumption. Qed.
  Lemma lf_add g s x : lawful g -> law s -> may x -> lawful (g_add g s x).
  Proof.
    intros [L M] H Hx. split; [exact H|]. intros k y. cbn. unfold put. destruct (k =? g_cnt g); [intros [= <-]; exact Hx|apply M].
  Qed.
  Lemma lf_put g s k x : lawful g -> law s -> (forall y, x = Some y -> may y) -> lawful (g_put g s k x).
  Proof. intros [L M] H Hx. split; [exact H|]. intros j y. cbn. unfold put. destruct (j =? k); [apply Hx|apply M]. Qed.
  Lemma lf_plain g (m : WT error unit) : lawful g -> keeps_law m -> lawful (snd (plain g (m (g_s g)))).
  Proof.
    intros L Hm. specialize (Hm _ (lf_law _ L)). unfold plain, finish. destruct (m (g_s g)) as [[a|e| | |] s']; cbn in *; exact (lf_set g s' L Hm).
  Qed.
  Lemma lf_reads g (m : WT error byte) : lawful g -> keeps_law m -> lawful (snd (reads g (m (g_s g)))).
  Proof.
    intros L Hm. specialize (Hm _ (lf_law _ L)). unfold reads, finish. destruct (m (g_s g)) as [[a|e| | |] s']; cbn in *; exact (lf_set g s' L Hm).
  Qed.
  Lemma may_file mut o s fd m : may (held_file mut o s fd m).
  Proof. cbn. destruct (op_protect o); cbn; auto. Qed.
  Lemma may_anon mut o s m : may (held_anon t mut o s m).
  Proof. cbn. destruct (op_protect o); cbn; auto. Qed.
  Lemma may_converted v b : may (WinMapModel.converted v b).
  Proof. cbn. auto. Qed.

  Ltac law_ops := first [apply law_whole|apply law_ranged]; intros p l;
    first [apply law_win_flush|apply law_ret|apply law_win_call, law_vlock|apply law_win_call, law_vunlock].
  Lemma lf_step a g : lawful g -> lawful (snd (act_step t a g)).
  Proof.
    intros L. destruct a; cbn [act_step]; unfold with_mut, with_map;
      repeat match goal with
      | |- lawful (snd (match g_tab g ?k with _ => _ end)) => destruct (g_tab g k) as [[v|r ob]|] eqn:?; try exact L
      | |- lawful (snd (if ?b then _ else _)) => destruct b eqn:?; try exact L
      end; try (apply lf_plain; [exact L|law_ops]); try (apply lf_reads; [exact L|intros s H; first [apply law_lift; [intros w Hw; unfold map_get; destruct (_ && _); exact Hw|exact H]|unfold wring_get; destruct (_ && _); exact H]]).
    - pose proof (law_open_if o path _ (lf_law _ L)) as K. destruct (wopen_if t o path (g_s g)) as [[[[m|] f]|e| | |] s']; cbn in *; try exact (lf_set g s' L K).
      apply lf_add; auto. apply may_file.
    - pose proof (law_map_if o fd _ (lf_law _ L)) as K. destruct (wmap_if t o fd (g_s g)) as [[[m|]|e| | |] s']; cbn in *; try exact (lf_set g s' L K).
      apply lf_add; auto. apply may_file.
    - pose proof (law_walloc o _ (lf_law _ L)) as K. destruct (walloc t o (g_s g)) as [[m|e| | |] s']; cbn in *; try exact (lf_set g s' L K).
      apply lf_add; auto. apply may_anon.
    - apply lf_set; [exact L|]. exact (lf_law _ L).
    - assert (K : law (snd (winto_map_mut t (v_map v) (g_s g)))).
      { apply law_convert; [|exact (lf_law _ L)]. apply law_whole. intros p l. apply law_win_call, law_protect. }
      destruct (winto_map_mut t (v_map v) (g_s g)) as [[m|e| | |] s']; cbn in *; try exact (lf_set g s' L K). apply lf_put; auto. intros y [= <-]. apply may_converted.
    - assert (K : law (snd (winto_map t (v_map v) (g_s g)))).
      { apply law_convert; [|exact (lf_law _ L)]. apply law_whole. intros p l. apply law_win_call, law_protect. }
      destruct (winto_map t (v_map v) (g_s g)) as [[m|e| | |] s']; cbn in *; try exact (lf_set g s' L K). apply lf_put; auto. intros y [= <-]. apply may_converted.
    - apply lf_plain; [exact L|apply law_set].
    - apply lf_plain; [exact L|apply law_ring_set].
    - pose proof (law_ring_new hint _ (lf_law _ L)) as K. destruct (win_ring_new t hint (g_s g)) as [[m|e| | |] s']; cbn in *; try exact (lf_set g s' L K).
      apply lf_add; auto. exact Logic.I.
    - pose proof (law_drop (v_map v) _ (lf_law _ L)) as K. destruct (wdrop t (v_map v) (g_s g)) as [[m|e| | |] s']; cbn in *; apply lf_put; auto; discriminate.
    - pose proof (law_ring_drop r _ (lf_law _ L)) as K. destruct (win_ring_drop t r (g_s g)) as [[m|e| | |] s']; cbn in *; apply lf_put; auto; discriminate.
    - apply lf_set; [exact L|]. exact (others_legal e _ (lf_law _ L)).
  Qed.

  (** ** Threads *)
  Lemma law_then {A} fail (m : WT error A) next s : keeps_law m -> law s -> law (snd (wthen fail (m s) next)).
  Proof. intros Hm H. unfold wthen. specialize (Hm s H). destruct (m s) as [[a|e| | |] s']; exact Hm. Qed.
  Lemma law_advance pd s : law s -> law (snd (wadvance t pd s)).
  Proof.
    intros H. destruct pd; cbn [wadvance].
    - apply law_then; [apply law_lift, io_legal, open_legal|exact H].
    - apply law_then; [apply law_stat|exact H].
    - apply law_then; [apply law_trunc|exact H].
    - apply law_then; [apply law_size|exact H].
    - destruct (vplan t o flen) as [[[[[mo ml] d] len]|]|e| | |]; try exact H. apply law_then; [apply law_handle|exact H].
    - destruct (uadd t len d) as [ml|e| | |]; try exact H. pose proof (law_handle_view h MapFileView (snd (protect_pair (op_protect o))) mapoff ml 0 s H) as K.
      destruct (handle_view _ _ _ _ _ _ _ s) as [r s']. exact K.
    - exact H.
    - exact H.
    - apply law_then; [apply law_handle|exact H].
    - pose proof (law_handle_view h MapAnonymousView (snd (protect_pair (op_protect o))) 0 total 0 s H) as K.
      destruct (handle_view _ _ _ _ _ _ _ s) as [r s']. exact K.
    - exact H.
    - apply law_then; [apply law_handle|exact H].
    - apply law_then; [apply law_win_call, law_alloc|exact H].
    - apply law_then; [apply law_no_result, law_free|exact H].
    - pose proof (law_handle_view h RingPrimary MapReadWrite 0 len pg s H) as K. destruct (handle_view _ _ _ _ _ _ _ s) as [[a|e| | |] s']; exact K.
    - pose proof (law_handle_view h RingSecondary MapReadWrite 0 len (ptr_add t pg len) s H) as K. destruct (handle_view _ _ _ _ _ _ _ s) as [[a|e| | |] s']; exact K.
    - pose proof (law_no_result _ (law_unmap pg) s H) as K. destruct (no_result _ s) as [[a|e0| | |] s']; exact K.
    - exact H.
    - pose proof (law_win_call RingDeallocate _ (law_unmap (ptr_add t (ra_ptr r) (ra_len r))) s H) as K. destruct (win_call _ _ s) as [[a|e0| | |] s']; exact K.
    - pose proof (law_no_result _ (law_unmap (ra_ptr r)) s H) as K. destruct (no_result _ s) as [[a|e0| | |] s']; exact K.
  Qed.
  Lemma lf_go tid pd s : lawful (wp_g (wt_p s)) -> lawful (wp_g (wt_p (snd (wgo t tid pd s)))).
  Proof.
    intros L. unfold wgo. pose proof (law_advance pd _ (lf_law _ L)) as K. destruct (wadvance t pd (g_s (wp_g (wt_p s)))) as [[pd'|mut own o fd ob m|mut o ob m|inf ob pg len|r] x]; cbn [snd] in K;
      cbn [snd wset_pool wt_p wp_g wp_set]; try exact (lf_set _ _ L K); apply lf_add; auto; try exact Logic.I; cbn; destruct (op_protect o); cbn; auto.
  Qed.
  Lemma lf_wpstep c p : lawful (wp_g p) -> lawful (wp_g (snd (wpstep t c p))).
  Proof.
    intros L. destruct c; cbn [wpstep].
    - destruct (on_maps p a); [|exact L]. pose proof (lf_step a _ L) as K. destruct (act_step t a (wp_g p)) as [r g']. exact K.
    - unfold wp_new. pose proof (law_ring_new hint _ (lf_law _ L)) as K. destruct (win_ring_new t hint (g_s (wp_g p))) as [[m|e| | |] s']; cbn in *; try exact (lf_set _ s' L K).
      apply lf_add; auto. exact Logic.I.
    - unfold wp_new. pose proof (law_ring_new hint _ (lf_law _ L)) as K. destruct (win_ring_new t hint (g_s (wp_g p))) as [[m|e| | |] s']; cbn in *; try exact (lf_set _ s' L K).
      apply lf_add; auto. exact Logic.I.
    - destruct (wp_ring p k) as [[v|v]|]; try exact L.
      pose proof (kring_keeps t win (wpeek t) (wpoke t) law (fun a b w => law_lift _ (store_legal a b) w) o v _ (lf_law _ L)) as K.
      destruct (kring_step _ _ _ _ o v _) as [r [v' s']]. exact (lf_set _ s' L K).
    - destruct (wp_ring p k) as [[v|v]|]; try exact L.
      pose proof (kiring_keeps t win (wpeek t) (wpoke t) law (fun a b w => law_lift _ (store_legal a b) w) o v _ (lf_law _ L)) as K.
      destruct (kiring_step _ _ _ _ o v _) as [r [v' s']]. exact (lf_set _ s' L K).
    - destruct (wp_ring p k) as [h|]; [|exact L]. pose proof (law_ring_drop (h_alloc h) _ (lf_law _ L)) as K.
      destruct (win_ring_drop t (h_alloc h) (g_s (wp_g p))) as [r s']. apply (lf_put _ s' k None L K). discriminate.
  Qed.
  Lemma lf_tstep e s : lawful (wp_g (wt_p s)) -> lawful (wp_g (wt_p (snd (wtstep t e s)))).
  Proof.
    intros L. destruct e; cbn [wtstep]; unfold wbegin.
    - pose proof (lf_wpstep c _ L) as K. destruct (wpstep t c (wt_p s)) as [x p']. exact K.
    - destruct (wt_pool s tid); exact L.
    - destruct (wt_pool s tid); exact L.
    - destruct (wt_pool s tid); [exact L|]. destruct (nplan t o) as [[[off len] total]|e| | |]; exact L.
    - destruct (wt_pool s tid); [exact L|]. match goal with |- context [match ?x with _ => _ end] => destruct x as [[len full]|e| | |] end; exact L.
    - destruct (wt_pool s tid); [exact L|]. destruct (wp_ring (wt_p s) k) as [h|]; [|exact L]. destruct (g_tab (wp_g (wt_p s)) k); [|exact L].
      cbn [snd wset_pool wt_p wp_g]. apply lf_put; [exact L|exact (lf_law _ L)|discriminate].
    - destruct (wt_pool s tid) as [pd|]; [|exact L]. apply lf_go, L.
  Qed.
  Lemma reached_lawful s0 s : wtreached t s0 s -> lawful (wp_g (wt_p s)).
  Proof.
    induction 1 as [F|s e R IH He]; [|apply lf_tstep, IH]. split; [|discriminate].
    intros p e E. cbn in E. rewrite (fs_vm _ F p) in E. discriminate E.
  Qed.
End Law.

(** The os function behind a call on part of a map. *)
Definition range_os (t : target) (a : act) (p l : Z) : WT error unit :=
  match a with
  | AFlushRange _ fd _ _ mode => win_flush t p fd l mode
  | AAdviseRange _ _ _ adv => win_advise p l adv
  | ALockRange _ _ _ => win_lock t p l
  | AUnlockRange _ _ _ => win_unlock t p l
  | _ => wret tt
  end.

Section Decided.
  Variable t : target.
  Hypothesis Ht : good_target t.
  Notation P := (t_page t).
  Notation q := (as_posix t).
  Let HP : 0 < P.
  Proof. exact (pow2_pos _ (proj1 (proj2 Ht))). Qed.
  Let Hq : posix_target q.
  Proof. exact (posix_of t Ht). Qed.

  Lemma wload_exact g k v i : prog_ok t g -> g_tab g k = Some (TMap v) ->
    (~ 0 <= i < m_len (v_map v) -> reading t g k i = Panic) /\
    (0 <= i < m_len (v_map v) ->
      (reading t g k i = Fault <-> o_size (w_obj (n_w (g_s g)) (v_obj v)) <= P * ((v_off v + i) / P)) /\
      (P * ((v_off v + i) / P) < o_size (w_obj (n_w (g_s g)) (v_obj v)) -> exists b, reading t g k i = Ret (GByte b) /\
         (win_shares (v_prot v) = true -> b = o_data (w_obj (n_w (g_s g)) (v_obj v)) (v_off v + i)))).
  Proof.
    intros K Hk. split; [exact (reading_past t g k v i Hk)|]. intros Hi.
    pose proof (one_ok t Ht g k v K Hk ltac:(lia)) as OK.
    destruct (load_exact q Hq (one_api (n_w (g_s g)) v) 0 (one_live v) i OK eq_refl) as [_ L]. destruct (L Hi) as [L1 L2]. clear L.
    cbn [one_live one_api l_obj l_off a_w] in L1, L2. change (t_page q) with P in *. rewrite (one_reading t g k v i Hk). rewrite one_shared in L2.
    split.
    - rewrite <- L1. destruct (read_at q (one_api (n_w (g_s g)) v) 0 i) as [[]|e| | |]; cbn; split; congruence.
    - intros Lt. destruct (L2 Lt) as (b & E & Eb). exists b. rewrite E. auto.
  Qed.

  Lemma wstore_exact g k v i b : prog_ok t g -> lawful g -> g_tab g k = Some (TMap v) -> v_mut v = true ->
    (~ 0 <= i < m_len (v_map v) -> act_step t (ASet k i b) g = (Panic, g)) /\
    (0 <= i < m_len (v_map v) ->
      let bad := o_size (w_obj (n_w (g_s g)) (v_obj v)) <= P * ((v_off v + i) / P) \/ prot_writes (v_prot v) = false in
      (bad -> act_step t (ASet k i b) g = (Fault, g)) /\
      (~ bad -> exists g', act_step t (ASet k i b) g = (Ret GNone, g') /\ reading t g' k i =
         (if win_shares (v_prot v) && (o_size (w_obj (n_w (g_s g)) (v_obj v)) <=? v_off v + i) then reading t g k i else Ret (GByte b)))).
  Proof.
    intros K L Hk Hm. pose proof (po_thing _ _ K _ _ Hk) as M. cbn in M.
    assert (Eg : forall w, w = n_w (g_s g) -> g_set g (with_w (g_s g) w) = g) by (intros w ->; destruct g as [[] tab cnt]; reflexivity).
    cbn [act_step]. rewrite Hk, Hm. unfold plain, wset, lift. split.
    - intros Hi. unfold map_set. destruct (Z.leb_spec 0 i), (Z.ltb_spec i (m_len (v_map v))); try lia; cbn; rewrite Eg; reflexivity.
    - intros Hi. cbv zeta. assert (C : 0 < m_ptr (v_map v) mod P + m_len (v_map v)) by (pose proof (Z.mod_pos_bound (m_ptr (v_map v)) P HP); lia).
      pose proof (mo_back _ _ _ M C) as B. destruct (byte_page q Hq _ _ _ _ _ _ B i Hi) as (Ep & Ow & I1 & I2).
      destruct (bk_pages _ _ _ _ _ _ _ B _ Ow) as (e & Ev & Eo & Ei & Es & Emx & Er & Ec).
      change (t_page q) with P in *.
      assert (Pw : p_w e = prot_writes (v_prot v)).
      { destruct (prot_writes (v_prot v)) eqn:Ew.
        - exact (mo_w _ _ _ M (lf_may _ L _ _ Hk Hm Ew) _ e Ow Ev).
        - destruct (p_w e) eqn:X; [|reflexivity]. rewrite (lf_law _ L _ e Ev X) in Emx. exact Emx. }
      assert (Q : map_set t (v_map v) i b (n_w (g_s g)) = OsModel.store t (m_ptr (v_map v) + i) b (n_w (g_s g))).
      { unfold map_set. rewrite (proj2 (Z.leb_le 0 i)), (proj2 (Z.ltb_lt i (m_len (v_map v)))) by lia. cbn [andb].
        change (ptr_add t (m_ptr (v_map v)) i) with (ptr_add q (m_ptr (v_map v)) i). rewrite Ep. reflexivity. }
      rewrite Q. split.
      + intros Bd. assert (X : OsModel.store (E:=error) t (m_ptr (v_map v) + i) b (n_w (g_s g)) = (Fault, n_w (g_s g))).
        { unfold OsModel.store. rewrite Ev, Pw, Eo, Ei, I1. cbv zeta. destruct Bd as [Sz| ->]; [|reflexivity].
          destruct (negb _); [reflexivity|]. rewrite (proj2 (Z.leb_le _ _) Sz). reflexivity. }
        rewrite X. cbn. rewrite Eg; reflexivity.
      + intros Nb.
        assert (Ew : prot_writes (v_prot v) = true) by (destruct (prot_writes (v_prot v)); [reflexivity|destruct Nb; auto]).
        assert (Sz : P * ((v_off v + i) / P) < o_size (w_obj (n_w (g_s g)) (v_obj v))) by lia.
        assert (Ep' : ptr_add t (m_ptr (v_map v)) i = m_ptr (v_map v) + i) by exact Ep.
        destruct (OsModel.store (E:=error) t (m_ptr (v_map v) + i) b (n_w (g_s g))) as [r w'] eqn:X. unfold OsModel.store in X. rewrite Ev, Pw, Ew, Eo, Ei, I1 in X.
        cbn [negb] in X. cbv zeta in X. rewrite (proj2 (Z.leb_gt _ _) Sz) in X. rewrite Es in X.
        assert (Em : P * ((v_off v + i) / P) + (m_ptr (v_map v) + i) mod P = v_off v + i).
        { pose proof (Z.div_mod (v_off v + i) P ltac:(lia)). lia. }
        rewrite Em in X.
        assert (Rd : reading t (g_set g (with_w (g_s g) w')) k i = as_seen (read_at q (one_api w' v) 0 i)).
        { exact (one_reading t (g_set g (with_w (g_s g) w')) k v i Hk). }
        assert (Get : forall w, read_at q (one_api w v) 0 i = match OsModel.load t w (m_ptr (v_map v) + i) with
          | Ret b => Ret (SByte b) | Err e => Err e | Panic => Panic | Fault => Fault | Blocked => Blocked end).
        { intros w. rewrite (read_at_live q (one_api w v) 0 (one_live v) i eq_refl). unfold map_get. cbn [one_live l_map].
          rewrite (proj2 (Z.leb_le 0 i)), (proj2 (Z.ltb_lt i (m_len (v_map v)))) by lia. cbn [andb]. rewrite Ep. reflexivity. }
        destruct (win_shares (v_prot v)) eqn:Sh; cbn [andb].
        * destruct (Z.ltb_spec (v_off v + i) (o_size (w_obj (n_w (g_s g)) (v_obj v)))) as [Lt|Ge]; injection X as <- <-.
          -- eexists. split; [reflexivity|]. rewrite (proj2 (Z.leb_gt _ _) Lt). cbn [snd]. rewrite Rd, Get. unfold OsModel.load. cbn [set_obj w_vm w_obj].
             rewrite Ev, Er, Eo, Ei, I1. cbn [negb]. rewrite put_same. cbn [o_size]. rewrite (proj2 (Z.leb_gt _ _) Sz). unfold page_byte.
             cbn [set_obj w_obj]. rewrite (Ec eq_refl), Eo, Ei, I1, put_same. cbn [o_size o_data]. rewrite Em. cbn.
             unfold upd. rewrite Z.eqb_refl. reflexivity.
          -- eexists. split; [reflexivity|]. rewrite (proj2 (Z.leb_le _ _) Ge). cbn [fst snd]. rewrite (Eg _ eq_refl). reflexivity.
        * injection X as <- <-. eexists. split; [reflexivity|]. cbn [fst snd]. rewrite Rd, Get. unfold OsModel.load. cbn [set_vm w_vm w_obj].
          rewrite put_same. cbn. rewrite Er, Eo, Ei, I1. cbn [negb]. rewrite (proj2 (Z.leb_gt _ _) Sz). unfold page_byte. cbn. unfold upd. rewrite Z.eqb_refl. reflexivity.
  Qed.

  (** A scalar. *)
  Lemma wread_exact B g k v ty off x : prog_ok t g -> g_tab g k = Some (TMap v) -> 0 <= off -> off + SpanModel.size_of t ty <= m_len (v_map v) ->
    match x with WriteVolatile _ | WriteUnaligned _ => False | _ => True end ->
    fst (perform t B (kernel_mem t) (v_map v) ty off x (n_w (g_s g))) =
      if is_volatile x && negb ((m_ptr (v_map v) + off) mod align_of B ty =? 0) then Panic
      else if o_size (w_obj (n_w (g_s g)) (v_obj v)) <=? P * ((v_off v + off + SpanModel.size_of t ty - 1) / P) then Fault else Ret tt.
  Proof.
    intros K Hk O0 Le Rd. pose proof (size_of_pos t Ht ty) as Sp. pose proof (one_ok t Ht g k v K Hk ltac:(lia)) as OK.
    exact (map_read_exact q Hq B (one_api (n_w (g_s g)) v) 0 (one_live v) ty off x OK eq_refl O0 Le Rd).
  Qed.

  Lemma wwrite_exact B g k v ty off b x : prog_ok t g -> lawful g -> g_tab g k = Some (TMap v) -> v_mut v = true ->
    0 <= off -> off + SpanModel.size_of t ty <= m_len (v_map v) -> x = WriteVolatile b \/ x = WriteUnaligned b ->
    fst (perform t B (kernel_mem t) (v_map v) ty off x (n_w (g_s g))) =
      if is_volatile x && negb ((m_ptr (v_map v) + off) mod align_of B ty =? 0) then Panic
      else if (o_size (w_obj (n_w (g_s g)) (v_obj v)) <=? P * ((v_off v + off + SpanModel.size_of t ty - 1) / P)) || negb (prot_writes (v_prot v))
      then Fault else Ret tt.
  Proof.
    intros K L Hk Hm O0 Le X. pose proof (po_thing _ _ K _ _ Hk) as M. cbn in M. pose proof (size_of_pos t Ht ty) as Sp.
    assert (C : 0 < m_ptr (v_map v) mod P + m_len (v_map v)) by (pose proof (Z.mod_pos_bound (m_ptr (v_map v)) P HP); lia).
    pose proof (mo_back _ _ _ M C) as Bk.
    apply (backed_write q Hq B _ _ _ _ _ _ (prot_writes (v_prot v)) ty off b x Bk); try assumption. split; [reflexivity|]. intros p Hp.
    destruct (bk_pages _ _ _ _ _ _ _ Bk _ Hp) as (e & Ev & Eo & Ei & Es & Emx & _). exists e. repeat split; try assumption.
    destruct (prot_writes (v_prot v)) eqn:Ew.
    - exact (mo_w _ _ _ M (lf_may _ L _ _ Hk Hm Ew) _ e Hp Ev).
    - destruct (p_w e) eqn:Y; [|reflexivity]. rewrite (lf_law _ L _ e Ev Y) in Emx. exact Emx.
  Qed.

  (** Wrapped ranges. *)
  Lemma wrange_wraps a g k v off n op mu : prog_ok t g -> g_tab g k = Some (TMap v) -> act_range a = Some (k, off, n, op, mu) ->
    (mu = true -> v_mut v = true) -> is_usize t off -> is_usize t n -> t_checks t = false -> 2 ^ t_bits t <= off + n ->
    (m_len (v_map v) < off + n - 2 ^ t_bits t -> act_step t a g = (Err {| e_repr := RInput InvalidRange; e_op := op |}, g)) /\
    (off + n - 2 ^ t_bits t <= m_len (v_map v) -> P <= m_ptr (v_map v) + off - 2 ^ t_bits t ->
       exists first c, act_step t a g = plain g (range_os t a (P * first) (P * c) (g_s g)) /\
         P * first <= m_ptr (v_map v) + off - 2 ^ t_bits t < P * (first + 1) /\
         m_ptr (v_map v) + off - 2 ^ t_bits t + n <= P * (first + c) < m_ptr (v_map v) + off - 2 ^ t_bits t + n + P).
  Proof.
    intros K Hk Ha Hm [O1 O2] [L1 L2] Ck Ge. pose proof (po_thing _ _ K _ _ Hk) as M. cbn in M.
    pose proof (mo_high _ _ _ M) as Hi. pose proof (mo_len _ _ _ M) as Hl. pose proof (mo_base _ _ _ M) as Hb.
    assert (Hg : 0 <= m_ptr (v_map v)).
    { unfold map_base in Hb. assert (0 < t_alloc t) by exact (pow2_pos _ (proj1 (proj2 (proj2 Ht)))). pose proof (Z.mul_div_le (m_ptr (v_map v)) (t_alloc t) ltac:(lia)). lia. }
    assert (X : act_step t a g = plain g (wranged t op (v_map v) off n (range_os t a) (g_s g))).
    { destruct a; cbn in Ha; try discriminate Ha;
        (assert (Z : k0 = k /\ off0 = off /\ len = n) by (injection Ha; auto 10)); destruct Z as (-> & -> & ->); injection Ha as <- <-; unfold act_step, with_mut, with_map; rewrite Hk;
        try rewrite (Hm eq_refl); reflexivity. }
    rewrite X. assert (Hs : uadd (E:=error) t off n = Ret (off + n - 2 ^ t_bits t)).
    { unfold uadd. rewrite wrap_out by lia. rewrite Ck. f_equal. rewrite <- (Z.mod_add _ (-1)) by lia. rewrite Z.mod_small by lia. lia. }
    unfold wranged, wbind, wout. rewrite Hs. split.
    - intros Gt. rewrite (proj2 (Z.ltb_lt _ _) Gt). cbn. destruct g; reflexivity.
    - intros Le Lo. destruct (Z.ltb_spec (m_len (v_map v)) (off + n - 2 ^ t_bits t)); [lia|]. unfold size_page.
      assert (Ep : ptr_add t (m_ptr (v_map v)) off = m_ptr (v_map v) + off - 2 ^ t_bits t).
      { unfold ptr_add, as_usize. rewrite <- (Z.mod_add _ (-1)) by lia. rewrite Z.mod_small by lia. lia. }
      rewrite Ep. set (z := m_ptr (v_map v) + off - 2 ^ t_bits t) in *. pose proof (page_div q Hq z) as [D1 D2]. change (t_page q) with P in *.
      pose proof (npages_bounds t HP (z mod P + n)) as NB.
      assert (F : 1 <= z / P) by nia.
      exists (z / P), (npages t (z mod P + n)). split.
      { assert (Sb : size_bounds (E:=error) t P z n = Ret (P * (z / P), P * npages t (z mod P + n))).
        { change (size_bounds t P z n) with (size_bounds (E:=error) q (t_page q) z n).
          rewrite (size_bounds_in q (bits_pos0 q Hq) (t_page q) (P_pow2 q Hq) (P_word q Hq)); change (t_page q) with P; try (unfold is_usize; cbn [as_posix t_bits]; nia).
          unfold npages. rewrite (Z.add_comm n (z mod P)). reflexivity. }
        rewrite Sb. reflexivity. }
      lia.
  Qed.
End Decided.
