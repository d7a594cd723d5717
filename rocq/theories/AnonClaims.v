(** Memory that nothing names: anonymous maps keep their bytes whatever is done
    to other maps, to files and by other processes. *)
From Coq Require Import Lia.
From Verif Require Import Base ErrorModel SizeModel SizeProofs OsModel MapModel MapSpec OsProofs MapProofs MapCreate MapOps OthersModel ApiModel ApiSpec
  OthersProofs ApiProofs MapClaims MapClaims2 MapClaims5 RingMapModel RingMapSpec ProcFrame OthersClaims.

(** Pages of [o] stay, with their private copies. *)
Definition calm (o : Z) (w w' : world) : Prop := priv w o ->
  priv w' o /\ forall p e, w_vm w p = Some e -> p_obj e = o -> exists e', w_vm w' p = Some e' /\ p_obj e' = o /\ p_copy e' = p_copy e.
Definition calmly {E A} (o : Z) (m : ST E A) : Prop := forall w, calm o w (snd (m w)).

Lemma calm_refl o w : calm o w w.
Proof. intros Pv. split; [exact Pv|]. eauto. Qed.
Lemma calm_trans o w1 w2 w3 : calm o w1 w2 -> calm o w2 w3 -> calm o w1 w3.
Proof.
  intros C1 C2 Pv. destruct (C1 Pv) as [P1 V1]. destruct (C2 P1) as [P2 V2]. split; [exact P2|]. intros p e He Ho.
  destruct (V1 p e He Ho) as (e1 & H1 & O1 & E1). destruct (V2 p e1 H1 O1) as (e2 & H2 & O2 & E2). exists e2. rewrite E2. auto.
Qed.
Lemma calm_same o w w' : safe o w w' -> w_vm w' = w_vm w -> calm o w w'.
Proof. intros S V Pv. split; [exact (sa_priv _ _ _ (S Pv))|]. rewrite V. eauto. Qed.
Lemma calmly_ret {E A} o (a : A) : calmly o (sret (E:=E) a).
Proof. intros w. apply calm_refl. Qed.
Lemma calmly_out {E A} o (x : out E A) : calmly o (sout x).
Proof. intros w. apply calm_refl. Qed.
Lemma calmly_bind {E A B} o (m : ST E A) (k : A -> ST E B) : calmly o m -> (forall a, calmly o (k a)) -> calmly o (sbind m k).
Proof.
  intros H K w. unfold sbind. specialize (H w). destruct (m w) as [[a|e| | |] w1]; cbn in *; try exact H. exact (calm_trans _ _ _ _ H (K a w1)).
Qed.
Lemma calmly_os {A} o op (m : ST Z A) : calmly o m -> calmly o (os_call op m).
Proof. intros H w. unfold os_call. specialize (H w). destruct (m w) as [[a|e| | |] w1]; exact H. Qed.
Lemma calmly_io {A} o (m : ST io_error A) : calmly o m -> calmly o (io_call m).
Proof. intros H w. unfold io_call. specialize (H w). destruct (m w) as [[a|e| | |] w1]; exact H. Qed.

Section Calm.
  Variable t : target.
  Variable o : Z.
  Notation P := (t_page t).

  Lemma calm_resize o' sz w : o' <> o -> calm o w (resize_obj t o' sz w).
  Proof.
    intros N Pv. split; [exact (sa_priv _ _ _ (safe_resize t o o' sz w N Pv))|]. intros p e He Ho.
    destruct (resize_obj_spec t o' sz w) as (V & _). specialize (V p). rewrite He in V. destruct (w_vm (resize_obj t o' sz w) p) as [e'|]; [|contradiction V].
    destruct V as [(So & _) [C|(_ & X & _)]]; [|congruence]. exists e'. split; [reflexivity|]. split; [congruence|exact C].
  Qed.
  Lemma calmly_ask {A} (k : Z -> ST Z A) : (forall a, calmly o (k a)) -> calmly o (ask k).
  Proof.
    intros H w. unfold ask. assert (Q : forall q, calm o w (set_orc w q)) by (intros q; apply calm_same; [apply safe_quiet; split; reflexivity|reflexivity]).
    destruct (w_orc w) as [|[e|a] q]; cbn; [apply calm_refl|apply Q|]. apply (calm_trans _ _ (set_orc w q)); [apply Q|apply H].
  Qed.
  (** Mapping does not fix the address: the pages are free before. *)
  Lemma calmly_mmap addr len pr shared anon fd off : calmly o (sys_mmap t false addr len pr shared anon fd off).
  Proof.
    intros w Pv. split; [exact (sa_priv _ _ _ (safely_mmap t o false addr len pr shared anon fd off w Pv))|].
    destruct (sys_mmap t false addr len pr shared anon fd off w) as [r w'] eqn:E. cbn [snd]. apply mmap_spec in E.
    assert (Mp : forall a o' i sh mx, mapped t w w' a len o' i pr sh mx -> forall p e, w_vm w p = Some e -> p_obj e = o ->
      exists e', w_vm w' p = Some e' /\ p_obj e' = o /\ p_copy e' = p_copy e).
    { intros a o' i sh mx M p e He Ho. exists e. split; [|auto].
      rewrite (mp_vm _ _ _ _ _ _ _ _ _ _ M p). destruct (in_pages_cases (a / P) (npages t len) p) as [[-> Ip]|[-> Ip]].
      - rewrite (mp_free _ _ _ _ _ _ _ _ _ _ M p Ip) in He. discriminate He.
      - exact He. }
    destruct r as [a|en| | |]; try contradiction E.
    - destruct E as (_ & _ & E). destruct anon; [apply (Mp _ _ _ _ _ (proj1 E))|]. destruct E as (f & _ & _ & M & _). exact (Mp _ _ _ _ _ M).
    - rewrite (q_vm _ _ E). eauto.
  Qed.
  Lemma calmly_close fd : calmly o (sys_close fd).
  Proof. intros w. apply calm_same; [apply safely_close|reflexivity]. Qed.
  Lemma calmly_ftruncate fd sz : calmly o (sys_ftruncate t fd sz).
  Proof.
    apply calmly_ask. intros a w. destruct (sz <? 0); [apply calm_refl|]. destruct (w_fd w fd) as [f|] eqn:Ef; [|apply calm_refl].
    destruct (negb (fd_w f)); [apply calm_refl|]. intros P1. apply calm_resize; [|exact P1]. exact (pv_fd _ _ P1 _ _ Ef).
  Qed.
  Lemma calmly_open path wr creat excl trunc : 0 <= path -> calmly o (sys_open t path wr creat excl trunc).
  Proof.
    intros Hp w Pv. split; [exact (sa_priv _ _ _ (safely_open t o path wr creat excl trunc (or_introl Hp) w Pv))|].
    assert (Id : forall w', w_vm w' = w_vm w -> forall p e, w_vm w p = Some e -> p_obj e = o -> exists e', w_vm w' p = Some e' /\ p_obj e' = o /\ p_copy e' = p_copy e).
    { intros w' -> p e He Ho. eauto. }
    unfold sys_open, ask. destruct (w_orc w) as [|[en|a] q]; [apply Id; reflexivity|apply Id; reflexivity|].
    destruct (negb _); [apply Id; reflexivity|]. cbn [w_fs set_orc]. destruct (w_fs w path) as [o'|] eqn:Ef.
    - destruct (creat && excl); [apply Id; reflexivity|]. cbv zeta. cbn [snd].
      destruct (trunc && _); [|apply Id; reflexivity].
      assert (No : o' <> o) by (intros ->; exact (pv_fs _ _ Pv _ Hp Ef)).
      assert (Pq : priv (set_orc w q) o) by (split; apply Pv).
      exact (proj2 (calm_resize o' 0 (set_orc w q) No Pq)).
    - destruct (negb creat); apply Id; reflexivity.
  Qed.
  Lemma calmly_fstat fd : calmly o (sys_fstat fd).
  Proof. apply calmly_ask. intros a w. destruct (w_fd w fd); apply calm_refl. Qed.
  Lemma calmly_map_file fd off len p : calmly o (os_map_file t fd off len p).
  Proof. destruct p; apply calmly_os, calmly_mmap. Qed.
  Lemma calmly_map_anon len p : calmly o (os_map_anon t len p).
  Proof. destruct p; apply calmly_os, calmly_mmap. Qed.
  Lemma calmly_set_len fd sz : calmly o (file_set_len t fd sz).
  Proof.
    intros w. unfold file_set_len. destruct (_ <? _); [apply calm_refl|]. pose proof (calmly_ftruncate fd sz w) as H.
    destruct (sys_ftruncate t fd sz w) as [[a|e| | |] w1]; exact H.
  Qed.
  Lemma calmly_file_len fd : calmly o (file_len fd).
  Proof. intros w. unfold file_len. pose proof (calmly_fstat fd w) as H. destruct (sys_fstat fd w) as [[a|e| | |] w1]; exact H. Qed.
  Lemma calmly_file_open oo path : 0 <= path -> calmly o (file_open t oo path).
  Proof.
    intros Hp w. unfold file_open. destruct (_ && _); [apply calm_refl|].
    pose proof (calmly_open path (oo_write oo) (oo_create oo || oo_create_new oo) (oo_create_new oo)
                  (oo_truncate oo && negb (oo_create_new oo)) Hp w) as H.
    destruct (sys_open _ _ _ _ _ _ w) as [[a|e| | |] w1]; exact H.
  Qed.
  Lemma calmly_resize_to fd sz : calmly o (resize_to t fd sz).
  Proof. apply calmly_bind; [apply calmly_io, calmly_set_len|]. intros. apply calmly_ret. Qed.
  Lemma calmly_map_if op fd : calmly o (map_if t op fd).
  Proof.
    unfold map_if. apply calmly_bind.
    { apply calmly_bind; [apply calmly_io, calmly_file_len|]. intros. apply calmly_ret. }
    intros l. apply calmly_bind; [destruct (_ && _); [apply calmly_resize_to|apply calmly_ret]|]. clear l.
    intros l. apply calmly_bind.
    { destruct (op_resize op); [apply calmly_ret|apply calmly_resize_to| |]; destruct (_ <? _); (apply calmly_resize_to || apply calmly_ret). }
    clear l. intros l. destruct (_ <? _); [apply calmly_ret|]. apply calmly_bind; [apply calmly_out|]. intros mx.
    destruct (extent_len _ _) as [len|]; [|apply calmly_ret].
    do 3 (apply calmly_bind; [apply calmly_out|]; intros ?). apply calmly_bind; [apply calmly_map_file|]. intros. apply calmly_ret.
  Qed.
  Lemma calmly_closing {A} fd (m : ST error A) : calmly o m -> calmly o (closing fd m).
  Proof.
    intros H w. unfold closing. specialize (H w). destruct (m w) as [[a|e| | |] w1]; try exact H;
      exact (calm_trans _ _ _ _ H (calmly_close fd w1)).
  Qed.
  Lemma calmly_open_if op path : 0 <= path -> calmly o (open_if t op path).
  Proof.
    intros Hp. apply calmly_bind; [apply calmly_io, calmly_file_open, Hp|]. intros f.
    apply calmly_bind; [apply calmly_closing, calmly_map_if|]. intros. apply calmly_ret.
  Qed.
  Lemma calmly_alloc op : calmly o (alloc t op).
  Proof.
    apply calmly_bind; [apply calmly_out|]. intros off. apply calmly_bind.
    { destruct (op_len op); apply calmly_out || apply calmly_ret. }
    intros len. apply calmly_bind; [apply calmly_out|]. intros tot. apply calmly_bind; [apply calmly_map_anon|]. intros. apply calmly_ret.
  Qed.
  Lemma calm_others e w : named_ok (COther e) -> calm o w (others t e w).
  Proof.
    intros He Pv. split; [exact (sa_priv _ _ _ (safe_others t o e He w Pv))|]. intros p x Hx Ho.
    destruct (others_vm t e w p x Hx) as (x' & Hx' & (So & _) & C). exists x'. split; [exact Hx'|]. split; [congruence|].
    destruct C as [C|[(_ & _ & path & sz & -> & Ef & _)|(path & sz & -> & _ & _ & Ef & _)]]; [exact C| |];
      cbn [named_ok] in He; rewrite Ho in Ef; destruct (pv_fs _ _ Pv path He Ef).
  Qed.
  (** Calls that are not made on a map. *)
  Lemma calm_step c a : named_ok c -> subject c = None -> calm o (a_w a) (a_w (snd (step t c a))).
  Proof.
    intros Hp Sc. destruct c as [mut op path|mut op fd|mut op|fd|k|k|k i|k i b|k md|k off len md|k adv|k off len adv|k|k off len|k|k off len|k|o' pg|oe];
      try discriminate Sc; cbn [step].
    - pose proof (calmly_open_if op path Hp (a_w a)) as H. destruct (open_if t op path (a_w a)) as [[[[m|] fd]|e| | |] w1]; exact H.
    - pose proof (calmly_map_if op fd (a_w a)) as H. destruct (map_if t op fd (a_w a)) as [[[m|]|e| | |] w1]; exact H.
    - pose proof (calmly_alloc op (a_w a)) as H. destruct (alloc t op (a_w a)) as [[m|e| | |] w1]; exact H.
    - apply calmly_close.
    - apply calm_same; [apply safe_writeback|reflexivity].
    - apply calm_others, Hp.
  Qed.
End Calm.

Section Anon.
  Variable t : target.
  Hypothesis Ht : posix_target t.
  Notation P := (t_page t).

  (** Map [k] shows memory that nothing else shows or names. *)
  Record alone (a : api) (k : Z) (l : live) : Prop := {
    al_ok : api_ok t a;
    al_live : a_live a k = Some l;
    al_priv : priv (a_w a) (l_obj l);
    al_pages : forall p e, w_vm (a_w a) p = Some e -> p_obj e = l_obj l -> own_page t (l_map l) p
  }.

  Lemma alone_step c a k l : alone a k l -> call_ok t c -> named_ok c -> subject c <> Some k ->
    alone (snd (step t c a)) k l /\ forall i, read_at t (snd (step t c a)) k i = read_at t a k i.
  Proof.
    intros [OK Hl Pv Pg] Ck Nm Sc. pose proof (ok_live _ _ OK k l Hl) as B.
    pose proof (step_ok t Ht c a OK Ck) as OK'.
    destruct (step t c a) as [r a'] eqn:E. cbn [snd] in *.
    destruct (step_others t Ht c a r a' k l OK Ck E Hl Sc) as [Hl' Vm].
    assert (Sf : safe' (l_obj l) (a_w a) (a_w a')).
    { pose proof (safe_step t (l_obj l) c a Nm) as S. rewrite E in S. apply S; [|exact Pv].
      destruct c as [| | | | | | |k' i b| | | | | | | | | | |]; auto. intros l' El' Hi e Ev Eo.
      cbn in Sc. assert (Nk : k' <> k) by congruence.
      destruct (byte_page t Ht _ _ _ _ _ _ (ok_live _ _ OK k' l' El') i Hi) as (Ep & Ow & _). rewrite Ep in Ev.
      exact (ok_apart _ _ OK _ _ _ _ _ El' Hl Nk Ow (Pg _ _ Ev Eo)). }
    assert (Cp : forall p e, own_page t (l_map l) p -> w_vm (a_w a) p = Some e -> exists e', w_vm (a_w a') p = Some e' /\ p_copy e' = p_copy e).
    { intros p e Hp He. destruct (subject c) as [k'|] eqn:Sb.
      - assert (Nk : k' <> k) by congruence.
        destruct (step_kinds t Ht c a r a' OK Ck E) as [_ _ _ _ [X|X]|l0 S0|k0 l0 l1 S0 L0 Wi|k0 l0 -> L0 _ _ [Q|(_ & _ & D)]|oe ->]; try congruence.
        + rewrite X. eauto.
        + rewrite (wi_out _ _ _ _ Wi); [eauto|]. intros Hp0. assert (N0 : k0 <> k) by congruence. exact (ok_apart _ _ OK _ _ _ _ _ L0 Hl N0 Hp0 Hp).
        + rewrite (q_vm _ _ Q). eauto.
        + rewrite D; [eauto|]. intros Hp0. cbn in Sb. assert (N0 : k0 <> k) by congruence. exact (ok_apart _ _ OK _ _ _ _ _ L0 Hl N0 Hp0 Hp).
        + discriminate Sb.
      - pose proof (calm_step t (l_obj l) c a Nm Sb Pv) as [_ V]. rewrite E in V. cbn [snd] in V.
        destruct (bk_pages _ _ _ _ _ _ _ B p Hp) as (e0 & He0 & Eo & _). assert (e0 = e) by congruence. subst e0.
        destruct (V p e He Eo) as (e' & H1 & _ & H2). eauto. }
    split.
    - split; [exact OK'|exact Hl'|exact (sa_priv _ _ _ Sf)|]. intros p e' He' Eo. destruct (sa_vm _ _ _ Sf p e' He' Eo) as (e & He & Eo'). exact (Pg p e He Eo').
    - intros i. destruct (Z_lt_le_dec i 0) as [|Hi1]; [rewrite (read_at_live t a k l i Hl), (read_at_live t a' k l i Hl'), !get_outside by lia; reflexivity|].
      destruct (Z_lt_le_dec i (m_len (l_map l))) as [Hi2|]; [|rewrite (read_at_live t a k l i Hl), (read_at_live t a' k l i Hl'), !get_outside by lia; reflexivity].
      assert (Hi : 0 <= i < m_len (l_map l)) by lia.
      rewrite (read_exact t Ht a k l i OK Hl Hi), (read_exact t Ht a' k l i OK' Hl' Hi), (sa_size _ _ _ Sf). destruct (_ <=? _); [reflexivity|].
      destruct (byte_page t Ht _ _ _ _ _ _ B i Hi) as (_ & Ow & _). destruct (bk_pages _ _ _ _ _ _ _ B _ Ow) as (e & Ev & _).
      destruct (Cp _ e Ow Ev) as (e' & Ev' & C). unfold shown. rewrite Ev, Ev', C. rewrite (sa_data _ _ _ Sf). reflexivity.
  Qed.
  Lemma alone_run h : forall a k l, alone a k l -> Forall (call_ok t) h -> Forall named_ok h -> Forall (fun c => subject c <> Some k) h ->
    forall i, read_at t (run t h a) k i = read_at t a k i.
  Proof.
    induction h as [|c h IH]; intros a k l Al F1 F2 F3 i; [reflexivity|]. inversion F1; inversion F2; inversion F3; subst. cbn [run].
    destruct (alone_step c a k l Al) as [Al' R]; try assumption. rewrite (IH _ k l Al'); auto.
  Qed.
  (** Calls on the map itself keep it that way. *)
  Lemma alone_own c a k l : alone a k l -> call_ok t c -> subject c = Some k -> c <> CDrop k -> exists l', alone (snd (step t c a)) k l'.
  Proof.
    intros [OK Hl Pv Pg] Ck Sc Nd. pose proof (step_ok t Ht c a OK Ck) as OK'. destruct (step t c a) as [r a'] eqn:E. cbn [snd] in *.
    destruct (step_kinds t Ht c a r a' OK Ck E) as [_ _ La _ [X|X]|l0 S0|k0 l0 l1 S0 L0 Wi Ll La|k0 l0 ->|oe ->]; try congruence; try discriminate Sc.
    - exists l. split; [exact OK'|rewrite La; exact Hl| |]; rewrite X; assumption.
    - assert (k0 = k) by congruence. subst k0. assert (l0 = l) by congruence. subst l0.
      assert (Sm : l_obj l1 = l_obj l /\ l_map l1 = l_map l) by (destruct Ll as [->|[->| ->]]; auto). destruct Sm as [So Sm].
      exists l1. split; [exact OK'|rewrite La; apply put_same| |]; rewrite So.
      + destruct Pv as [P1 P2 P3]. split; [rewrite (wi_next _ _ _ _ Wi); exact P1|rewrite (wi_fd _ _ _ _ Wi); exact P2|rewrite (wi_fs _ _ _ _ Wi); exact P3].
      + intros p e He Eo. rewrite Sm. destruct (in_pages_cases (first_page t (l_map l)) (page_count t (l_map l)) p) as [[_ Ip]|[_ Ip]]; [exact Ip|].
        rewrite (wi_out _ _ _ _ Wi p Ip) in He. exact (Pg p e He Eo).
    - cbn in Sc. congruence.
  Qed.
  Lemma alone_any h : forall a k l, alone a k l -> Forall (call_ok t) h -> Forall named_ok h -> Forall (fun c => c <> CDrop k) h ->
    exists l', alone (run t h a) k l'.
  Proof.
    induction h as [|c h IH]; intros a k l Al F1 F2 F3; [exists l; exact Al|]. inversion F1; inversion F2; inversion F3; subst. cbn [run].
    assert (Ds : subject c = Some k \/ subject c <> Some k).
    { destruct (subject c) as [k'|]; [|right; discriminate]. destruct (Z.eq_dec k' k) as [->|]; [auto|right; congruence]. }
    destruct Ds as [Sc|Sc].
    - destruct (alone_own c a k l Al) as (l' & Al'); try assumption. exact (IH _ k l' Al' ltac:(assumption) ltac:(assumption) ltac:(assumption)).
    - destruct (alone_step c a k l Al) as [Al' _]; try assumption. exact (IH _ k l Al' ltac:(assumption) ltac:(assumption) ltac:(assumption)).
  Qed.
  Lemma alloc_alone mut op a k a' : api_ok t a -> call_ok t (CAlloc mut op) -> step t (CAlloc mut op) a = (Ret (SMap k), a') ->
    exists l, alone a' k l.
  Proof.
    intros OK Ck E. pose proof (step_ok t Ht _ a OK Ck) as OK'. rewrite E in OK'. cbn [snd] in OK'. pose proof (ok_wf _ _ OK) as W.
    cbn [step call_ok] in *. destruct Ck as [O Fit]. destruct (alloc t op (a_w a)) as [r w1] eqn:Ea.
    pose proof (alloc_spec t Ht _ _ _ _ W O Fit Ea) as M. destruct r as [m|e| | |]; try discriminate E. injection E as <- <-.
    destruct M as (_ & _ & _ & C & Nx & Fd & Fs & _). eexists. split; [exact OK'|apply put_same| |]; cbn [a_w add_live l_obj l_map].
    - split.
      + lia.
      + intros fd f. rewrite Fd. intros Hf. pose proof (wf_fd _ W _ _ Hf). lia.
      + intros path _. rewrite Fs. intros Hf. pose proof (wf_fs _ W _ _ Hf). lia.
    - intros p e He Eo. destruct (in_pages_cases (first_page t m) (page_count t m) p) as [[_ Ip]|[_ Ip]]; [exact Ip|].
      rewrite (cr_rest _ _ _ _ _ _ _ _ C p Ip) in He. pose proof (wf_vm _ W _ _ He). lia.
  Qed.
End Anon.
