(** The mapping properties, continued: error operations, files, allocation,
    lifetime of maps. *)
From Coq Require Import Lia.
From Verif Require Import Base ErrorModel SizeModel SizeProofs OsModel MapModel MapSpec OsProofs MapProofs MapCreate MapOps ApiModel ApiSpec ApiProofs MapClaims MapClaims2.

(** ** C58: every failure of a program names one operation *)
Definition errs {A} (op : operation) (m : ST error A) : Prop := forall w e w', m w = (Err e, w') -> e_op e = op.

Lemma errs_ret {A} op (x : A) : errs op (sret x).
Proof. intros w e w' H. discriminate H. Qed.
Lemma errs_bind {A B} op (m : ST error A) (k : A -> ST error B) : errs op m -> (forall x, errs op (k x)) -> errs op (sbind m k).
Proof.
  intros Hm Hk w e w' H. unfold sbind in H. destruct (m w) as [[x|e1| | |] w1] eqn:E; try discriminate H.
  - exact (Hk x _ _ _ H).
  - injection H as <- <-. exact (Hm _ _ _ E).
Qed.
Lemma errs_os {A} op (m : ST Z A) : errs op (os_call op m).
Proof. intros w e w' H. apply os_call_inv in H as (x & _ & ->). reflexivity. Qed.
Lemma errs_io {A} (m : ST io_error A) : errs MapFile (io_call m).
Proof.
  intros w e w' H. unfold io_call in H. destruct (m w) as [[x|e1| | |] w1]; try discriminate H. injection H as <- <-. reflexivity.
Qed.
Lemma errs_if {A} op (b : bool) (m1 m2 : ST error A) : errs op m1 -> errs op m2 -> errs op (if b then m1 else m2).
Proof. destruct b; auto. Qed.

(** Arithmetic never gives [Err]. *)
Definition no_err {E A} (x : out E A) : Prop := forall e, x <> Err e.
Lemma errs_sout {A} op (x : out error A) : no_err x -> errs op (sout x).
Proof. intros N w e w' H. injection H as H _. elim (N e H). Qed.
Lemma ne_bind {E A B} (x : out E A) (k : A -> out E B) : no_err x -> (forall y, no_err (k y)) -> no_err (obind x k).
Proof. intros N K e. destruct x; cbn; [apply K|intros X; apply (N e); congruence|discriminate|discriminate|discriminate]. Qed.
Lemma ne_wrap {E} c n x : no_err (wrap (E:=E) c n x).
Proof. intros e. unfold wrap. destruct ((0 <=? x) && (x <? 2 ^ n)); [discriminate|]. destruct c; discriminate. Qed.
Lemma ne_ret {E A} (x : A) : no_err (Ret (E:=E) x).
Proof. intros e. discriminate. Qed.
Ltac ne := repeat first [apply ne_bind; [|intros]|apply ne_wrap|apply ne_ret].
Lemma ne_ushr {E} t x s : no_err (ushr (E:=E) t x s).
Proof. intros e. unfold ushr. destruct (s <? t_bits t); [discriminate|]. destruct (t_checks t); discriminate. Qed.
Lemma ne_truncate {E} t s x : no_err (size_truncate (E:=E) t s x).
Proof. unfold size_truncate. ne. Qed.
Lemma ne_round {E} t s x : no_err (size_round (E:=E) t s x).
Proof. unfold size_round. ne; apply ne_truncate. Qed.
Lemma ne_offset {E} t s x : no_err (size_offset (E:=E) t s x).
Proof. unfold size_offset. ne. Qed.
Lemma ne_bounds {E} t s p l : no_err (size_bounds (E:=E) t s p l).
Proof. unfold size_bounds. ne; auto using ne_truncate, ne_round. Qed.

Section Errs.
  Variable t : target.
  Ltac er := repeat first
    [ apply errs_bind; [|intros]
    | apply errs_ret
    | apply errs_os
    | apply errs_io
    | apply errs_if
    | apply errs_sout; first [apply ne_truncate|apply ne_bounds|apply ne_offset|ne; apply ne_round]
    | apply errs_sout; solve [ne] ].

  Lemma errs_map_if o fd : errs MapFile (map_if t o fd).
  Proof.
    unfold map_if. er. unfold resize_to. er. destruct (op_resize o); unfold resize_to; er.
    destruct (extent_len _ _); er. unfold os_map_file. destruct (op_protect o); er.
  Qed.
  Lemma errs_map o fd : errs MapFile (map_ t o fd).
  Proof. unfold map_. apply errs_bind; [apply errs_map_if|]. intros [m|]; er. intros w e w' H. injection H as <- _. reflexivity. Qed.
  Lemma errs_closing {A} op fd (m : ST error A) : errs op m -> errs op (closing fd m).
  Proof.
    intros M w e w' H. unfold closing in H. destruct (m w) as [r w1] eqn:E. destruct r; injection H as X _; try discriminate X. subst. eapply M, E.
  Qed.
  Lemma errs_open o path : errs MapFile (open_ t o path).
  Proof. unfold open_. er. apply errs_closing, errs_map. Qed.
  Lemma errs_open_if o path : errs MapFile (open_if t o path).
  Proof. unfold open_if. er. apply errs_closing, errs_map_if. Qed.
  Lemma errs_alloc o : errs MapAnonymous (alloc t o).
  Proof.
    unfold alloc. er. destruct (op_len o); er.
    unfold os_map_anon. destruct (op_protect o); er.
  Qed.
  Lemma errs_whole op m f : (forall p l, errs op (f p l)) -> errs op (whole t m f).
  Proof. intros H. unfold whole. er. apply H. Qed.
  Lemma errs_ranged op m off len f : (forall p l, errs op (f p l)) -> errs op (ranged t op m off len f).
  Proof.
    intros H. unfold ranged. apply errs_bind; [er|]. intros x. apply errs_if.
    - intros w e w' X. injection X as <- _. reflexivity.
    - er. apply H.
  Qed.
  Lemma convert_errs op m (f : ST error unit) w e m' w' : errs op f -> convert m f w = (Err (e, m'), w') -> e_op e = op.
  Proof. intros F H. apply convert_inv in H as [_ H]. exact (F _ _ _ H). Qed.
  Lemma unit_errs op a m r a' e : errs op m -> unit_call a (m (a_w a)) = (r, a') -> r = Err e -> e_op e = op.
  Proof.
    intros M H ->. unfold unit_call in H. destruct (m (a_w a)) as [[x|e1| | |] w1] eqn:E; try discriminate H.
    injection H as -> _. exact (M _ _ _ E).
  Qed.
  Lemma set_no_err m i b w e w' : map_set t m i b w <> (Err e, w').
  Proof.
    unfold map_set. destruct ((0 <=? i) && (i <? m_len m)); [|discriminate]. unfold OsModel.store.
    destruct (w_vm w _) as [x|]; [|discriminate]. destruct (negb (p_w x)); [discriminate|].
    destruct (_ <=? _); [discriminate|]. destruct (p_shared x); discriminate.
  Qed.
  Lemma get_no_err m i w e w' : map_get t m i w <> (Err e, w').
  Proof.
    unfold map_get. destruct ((0 <=? i) && (i <? m_len m)); [|discriminate]. unfold OsModel.load.
    destruct (w_vm w _) as [x|]; [|discriminate]. destruct (negb (p_r x)); [discriminate|]. destruct (_ <=? _); discriminate.
  Qed.
  Lemma drop_no_err m w e w' : drop_map t m w <> (Err e, w').
  Proof.
    unfold drop_map. destruct (0 <? m_len m); [|discriminate].
    pose proof (ne_bounds (E:=error) t (size_alloc t) (m_ptr m) (m_len m)) as N.
    destruct (size_bounds t (size_alloc t) (m_ptr m) (m_len m)) as [[p l]|x| | |]; try discriminate.
    - destruct (os_unmap t p l w) as [[u|x| | |] w1]; discriminate.
    - elim (N x). reflexivity.
  Qed.

  Lemma errors_lemma c a e a' : step t c a = (Err e, a') -> operation_of c = Some (e_op e).
  Proof.
    destruct c; cbn [step operation_of]; unfold with_map; intros H.
    - destruct (open_if t o path (a_w a)) as [[[[m|] fd]|e1| | |] w'] eqn:E; try discriminate H. injection H as <- _.
      f_equal. symmetry. exact (errs_open_if _ _ _ _ _ E).
    - destruct (map_if t o fd (a_w a)) as [[[m|]|e1| | |] w'] eqn:E; try discriminate H. injection H as <- _.
      f_equal. symmetry. exact (errs_map_if _ _ _ _ _ E).
    - destruct (alloc t o (a_w a)) as [[m|e1| | |] w'] eqn:E; try discriminate H. injection H as <- _.
      f_equal. symmetry. exact (errs_alloc _ _ _ _ E).
    - discriminate H.
    - destruct (a_live a k) as [l|]; [|discriminate H]. destruct (l_mut l); [discriminate H|].
      destruct (into_map_mut t (l_map l) (a_w a)) as [[m|[e1 m]| | |] w'] eqn:E; try discriminate H. injection H as <- _.
      f_equal. symmetry. refine (convert_errs _ _ _ _ _ _ _ _ E). apply errs_bind; [apply errs_sout, ne_bounds|]. intros. apply errs_os.
    - destruct (a_live a k) as [l|]; [|discriminate H]. destruct (negb (l_mut l)); [discriminate H|].
      destruct (into_map t (l_map l) (a_w a)) as [[m|[e1 m]| | |] w'] eqn:E; try discriminate H. injection H as <- _.
      f_equal. symmetry. refine (convert_errs _ _ _ _ _ _ _ _ E). apply errs_bind; [apply errs_sout, ne_bounds|]. intros. apply errs_os.
    - destruct (a_live a k) as [l|]; [|discriminate H]. destruct (map_get t (l_map l) i (a_w a)) as [[b|e1| | |] w'] eqn:E; try discriminate H.
      elim (get_no_err _ _ _ _ _ E).
    - destruct (a_live a k) as [l|]; [|discriminate H]. destruct (l_mut l); [|discriminate H].
      unfold unit_call in H. destruct (map_set t (l_map l) i b (a_w a)) as [[x|e1| | |] w'] eqn:E; try discriminate H. elim (set_no_err _ _ _ _ _ _ E).
    - destruct (a_live a k) as [l|]; [|discriminate H]. destruct (l_mut l); [|discriminate H].
      f_equal. symmetry. refine (unit_errs _ _ _ _ _ _ _ H eq_refl). apply errs_whole. intros. apply errs_os.
    - destruct (a_live a k) as [l|]; [|discriminate H]. destruct (l_mut l); [|discriminate H].
      f_equal. symmetry. refine (unit_errs _ _ _ _ _ _ _ H eq_refl). apply errs_ranged. intros. apply errs_os.
    - destruct (a_live a k) as [l|]; [|discriminate H].
      f_equal. symmetry. refine (unit_errs _ _ _ _ _ _ _ H eq_refl). apply errs_whole. intros. apply errs_os.
    - destruct (a_live a k) as [l|]; [|discriminate H].
      f_equal. symmetry. refine (unit_errs _ _ _ _ _ _ _ H eq_refl). apply errs_ranged. intros. apply errs_os.
    - destruct (a_live a k) as [l|]; [|discriminate H].
      f_equal. symmetry. refine (unit_errs _ _ _ _ _ _ _ H eq_refl). apply errs_whole. intros. apply errs_os.
    - destruct (a_live a k) as [l|]; [|discriminate H].
      f_equal. symmetry. refine (unit_errs _ _ _ _ _ _ _ H eq_refl). apply errs_ranged. intros. apply errs_os.
    - destruct (a_live a k) as [l|]; [|discriminate H].
      f_equal. symmetry. refine (unit_errs _ _ _ _ _ _ _ H eq_refl). apply errs_whole. intros. apply errs_os.
    - destruct (a_live a k) as [l|]; [|discriminate H].
      f_equal. symmetry. refine (unit_errs _ _ _ _ _ _ _ H eq_refl). apply errs_ranged. intros. apply errs_os.
    - destruct (a_live a k) as [l|]; [|discriminate H]. destruct (drop_map t (l_map l) (a_w a)) as [[b|e1| | |] w'] eqn:E; try discriminate H.
      elim (drop_no_err _ _ _ _ E).
    - discriminate H.
    - discriminate H.
  Qed.
End Errs.

Section Claims.
  Variable t : target.
  Hypothesis Ht : posix_target t.
  Notation P := (t_page t).

  (** ** Conversions *)
  Lemma convert_same m f w : match convert m f w with (Ret m', _) | (Err (_, m'), _) => m' = m | _ => True end.
  Proof. unfold convert. destruct (f w) as [[x|e| | |] w1]; auto. Qed.

  (** ** C21 *)
  Lemma open_if_fds o path w r w' : wf w -> options_ok t o -> open_if t o path w = (r, w') ->
    match r with
    | Ret (m, fd) => 0 <= fd /\ w_fd w fd = None /\ exists ob, w_fs w' path = Some ob /\
        (w_fs w path = Some ob \/ (w_fs w path = None /\ ob = w_next w)) /\
        w_fd w' = put (w_fd w) fd (Some {| fd_obj := ob; fd_w := oo_write (op_open o) |})
    | Err e => forall fd, w_fd w' fd = w_fd w fd
    | _ => False
    end.
  Proof.
    intros W O H. destruct (open_if_spec t Ht _ _ _ _ _ W O H) as (_ & _ & M). destruct r as [[m fd]|e| | |]; try contradiction M; [|exact (proj2 M)].
    destruct M as (w1 & Eo & Em). destruct (file_open_spec t _ _ _ _ _ Eo) as [_ So].
    pose proof (open_spec t _ _ _ _ _ _ _ _ W So) as (F0 & Fn & ob & F1 & Fs & _ & Old).
    destruct (open_extends t _ _ _ _ _ _ _ _ W So) as (_ & W1 & _).
    destruct (map_if_extends t Ht _ _ _ _ _ W1 O Em) as (_ & _ & F2 & S2 & _).
    split; [exact F0|]. split; [exact Fn|]. exists ob. rewrite S2, F2. split; [exact Fs|]. split; [|exact F1].
    destruct (w_fs w path) as [o'|]; [left; f_equal; symmetry; exact (proj1 Old)|right; split; [reflexivity|exact (proj1 (proj2 Old))]].
  Qed.
  Lemma open_fds o path w r w' : wf w -> options_ok t o -> open_ t o path w = (r, w') ->
    match r with
    | Ret (m, fd) => 0 <= fd /\ w_fd w fd = None /\ exists ob, w_fs w' path = Some ob /\
        (w_fs w path = Some ob \/ (w_fs w path = None /\ ob = w_next w)) /\
        w_fd w' = put (w_fd w) fd (Some {| fd_obj := ob; fd_w := oo_write (op_open o) |})
    | Err e => forall fd, w_fd w' fd = w_fd w fd
    | _ => False
    end.
  Proof.
    intros W O H. rewrite open_agrees in H. destruct (open_if t o path w) as [r1 w1] eqn:E.
    pose proof (open_if_fds _ _ _ _ _ W O E) as F.
    destruct r1 as [[[m|] fd]|e| | |]; try contradiction F; injection H as <- <-; try exact F.
    destruct F as (_ & Fn & ob & _ & _ & F). intros fd'. cbn [w_fd set_fd]. rewrite F. apply put_undo, Fn.
  Qed.
  Lemma map_fds o fd w r w' : wf w -> options_ok t o -> map_if t o fd w = (r, w') -> w_fd w' = w_fd w /\ w_fs w' = w_fs w.
  Proof. intros W O H. destruct (map_if_extends t Ht _ _ _ _ _ W O H) as (_ & _ & F & S & _). auto. Qed.
  Lemma close_lemma a fd a' r : step t (CClose fd) a = (r, a') ->
    r = Ret SNone /\ w_fd (a_w a') = put (w_fd (a_w a)) fd None /\ a_live a' = a_live a /\
    forall k i, read_at t a' k i = read_at t a k i.
  Proof.
    intros H. injection H as <- <-. split; [reflexivity|]. split; [reflexivity|]. split; [reflexivity|]. intros k i.
    destruct (a_live a k) as [l|] eqn:Hl.
    - apply (read_same t a _ k l l i); auto; cbn; auto using same_page_refl.
    - unfold read_at. cbn [step]. unfold with_map. cbn [a_live set_w]. rewrite Hl. reflexivity.
  Qed.

  (** ** C22, C23 *)
  Lemma alloc_lemma o w m w' : wf w -> options_ok t o -> alloc_fits t o \/ t_checks t = true -> alloc t o w = (Ret m, w') ->
    alloc_len t o (m_len m) /\ m_ptr m mod P = op_offset o mod P /\
    (forall i, 0 <= i < m_len m -> map_get t m i w' = (Ret 0, w')) /\
    (forall ob, ob < w_next w -> w_obj w' ob = w_obj w ob) /\ w_fd w' = w_fd w /\ w_fs w' = w_fs w.
  Proof.
    intros W O Fit H. destruct (alloc_spec t Ht _ _ _ _ W O Fit H) as (_ & AL & _ & C & _ & F & S & Ob & _).
    pose proof (cr_backed _ _ _ _ _ _ _ _ C) as B. destruct (bk_off _ _ _ _ _ _ _ B) as [B0 B1]. pose proof (P_pos t Ht) as HP.
    split; [exact AL|]. split; [rewrite Z.mod_mod in B1 by lia; congruence|]. split; [|split; [|auto]].
    - intros i Hi. assert (In : op_offset o mod P + i < o_size (w_obj w' (w_next w))).
      { rewrite Ob, put_same. cbn [o_size]. pose proof (map_end t Ht m). pose proof (ptr_split t Ht m) as [S1 S2]. rewrite Z.mod_mod in B1 by lia. lia. }
      rewrite (get_spec t Ht _ _ _ _ _ _ B i Hi In). destruct (byte_page t Ht _ _ _ _ _ _ B i Hi) as (_ & Ow & _).
      destruct (byte_entry t Ht _ _ _ _ _ _ B i Hi) as (e & E & _). unfold shown. rewrite E, (proj1 (cr_fresh _ _ _ _ _ _ _ _ C _ e Ow E)), Ob, put_same. reflexivity.
    - intros ob Hb. rewrite Ob. apply put_other. lia.
  Qed.
  (** [MapMut::new] *)
  Lemma new_lemma hint w m w' : wf w -> is_usize t hint -> hint + P < 2 ^ t_bits t \/ t_checks t = true -> mapmut_new t hint w = (Ret m, w') ->
    hint <= m_len m < hint + P /\ m_len m mod P = 0 /\ m_ptr m mod P = 0 /\
    (forall i b, 0 <= i < m_len m -> map_get t m i w' = (Ret 0, w') /\ fst (map_set t m i b w') = Ret tt).
  Proof.
    intros W Hh Hw H. unfold mapmut_new in H. pose proof (P_pos t Ht) as HP.
    assert (Z0 : 0 mod P = 0) by (apply Z.mod_small; lia).
    assert (O : options_ok t (opt_len (ExtMin hint) mapmut_with_options)).
    { unfold options_ok, extent_ok, is_usize in *. cbn -[Z.pow]. lia. }
    assert (F : alloc_fits t (opt_len (ExtMin hint) mapmut_with_options) \/ t_checks t = true).
    { destruct Hw; [left|auto]. unfold alloc_fits. cbn -[Z.pow Z.modulo Z.add]. rewrite Z0. lia. }
    destruct (alloc_lemma _ _ _ _ W O F H) as (L & A & Rd & _).
    destruct (alloc_spec t Ht _ _ _ _ W O F H) as (_ & _ & _ & C & _ & _ & _ & Ob & _).
    unfold alloc_len in L. cbn -[Z.pow Z.modulo Z.add] in L, A. rewrite Z0 in L, A. rewrite Z.add_0_l in L.
    split; [apply L|]. split; [apply L|]. split; [exact A|]. intros i b Hi. split; [exact (Rd i Hi)|].
    pose proof (cr_backed _ _ _ _ _ _ _ _ C) as B. destruct (set_spec t Ht _ _ _ _ _ _ i b B Hi) as (e & Ee & Ow & St & _).
    destruct St as (w2 & -> & _); [|exact (proj1 (proj2 (proj2 (cr_fresh _ _ _ _ _ _ _ _ C _ e Ow Ee))))|reflexivity].
    rewrite Ob, put_same. cbn [o_size]. cbn -[Z.modulo Z.mul]. rewrite Z0.
    pose proof (map_end t Ht m). pose proof (ptr_split t Ht m) as [S1 S2]. lia.
  Qed.
  Lemma alloc_readonly o w r w' : wf w -> options_ok t o -> alloc_fits t o \/ t_checks t = true -> op_protect o = ReadOnly ->
    alloc t o w = (r, w') -> (exists e, r = Err e /\ e_op e = MapAnonymous) \/ r = Panic.
  Proof.
    intros W O Fit R H. pose proof (alloc_spec t Ht _ _ _ _ W O Fit H) as M. destruct r as [m|e| | |]; try contradiction M.
    - destruct M as (_ & _ & N & _). contradiction.
    - left. exists e. split; [reflexivity|exact (proj1 M)].
    - right. reflexivity.
  Qed.

  (** The kernel grants a mapping when it offers a usable free place. *)
  Lemma mmap_grant len pr shared anon fd off w a q : w_orc w = Grant a :: q -> 0 < len -> 0 <= off -> off mod P = 0 ->
    range_ok t a len = true -> (forall p, a / P <= p < a / P + npages t len -> w_vm w p = None) ->
    (anon = true \/ exists f, w_fd w fd = Some f /\ (shared && pr_w pr = true -> fd_w f = true)) ->
    exists w', sys_mmap t false 0 len pr shared anon fd off w = (Ret a, w').
  Proof.
    intros Q L O0 O1 R F B. unfold sys_mmap, ask. rewrite Q.
    rewrite (proj2 (Z.leb_gt len 0)), (proj2 (Z.ltb_ge off 0)), O1 by lia. cbn [orb negb Z.eqb]. rewrite R. cbn [negb andb].
    rewrite (proj2 (free_range_iff (set_orc w q) (a / P) (npages t len)) F). cbn [negb].
    unfold backing. destruct anon.
    - eexists. reflexivity.
    - destruct B as [B|(f & Ef & Wf)]; [discriminate B|]. cbn [w_fd set_orc]. rewrite Ef.
      destruct (shared && pr_w pr) eqn:S.
      + rewrite (Wf eq_refl). cbn. eexists. reflexivity.
      + cbn. eexists. reflexivity.
  Qed.

  Lemma alloc_eq o n w : options_ok t o -> alloc_fits t o -> alloc_len t o n -> 0 <= n ->
    alloc t o w = sbind (os_map_anon t (op_offset o mod P + n) (op_protect o))
      (fun ptr => sret {| m_ptr := ptr_add t ptr (op_offset o mod P); m_len := n |}) w.
  Proof.
    intros (_ & Ol & Oo) Fit AL Hn. pose proof (P_pos t Ht) as HP. pose proof (page_div t Ht (op_offset o)) as [D1 D2].
    unfold alloc. unfold sbind at 1, sout at 1. unfold size_page.
    rewrite (size_offset_eq t (bits_pos0 t Ht) P (P_pow2 t Ht) (P_word t Ht)) by exact Oo.
    unfold alloc_fits in Fit. unfold alloc_len in AL. set (off := op_offset o mod P) in *. cbv zeta in Fit, AL.
    assert (Rnd : forall l, is_usize t l -> off + l + P < 2 ^ t_bits t -> P * npages t (off + l) - off = n ->
      sbind (sout (let* a := uadd t off l in let* r := size_round t (size_alloc t) a in usub t r off))
          (fun len => sbind (sout (uadd t off len)) (fun total => sbind (os_map_anon t total (op_protect o))
          (fun ptr => sret {| m_ptr := ptr_add t ptr off; m_len := len |}))) w =
      sbind (os_map_anon t (off + n) (op_protect o)) (fun ptr => sret {| m_ptr := ptr_add t ptr off; m_len := n |}) w).
    { intros l Ul Fl En. rewrite (alloc_round t Ht off l D2 Ul), (proj2 (Z.ltb_lt _ _) Fl), En.
      unfold sbind at 1, sout at 1. unfold sbind at 1, sout at 1. unfold uadd. pose proof (npages_bounds t HP (off + l)). rewrite wrap_in by lia. reflexivity. }
    assert (Ex : off + n < 2 ^ t_bits t -> sbind (sret n)
          (fun len => sbind (sout (uadd t off len)) (fun total => sbind (os_map_anon t total (op_protect o))
          (fun ptr => sret {| m_ptr := ptr_add t ptr off; m_len := len |}))) w =
      sbind (os_map_anon t (off + n) (op_protect o)) (fun ptr => sret {| m_ptr := ptr_add t ptr off; m_len := n |}) w).
    { intros Fl. unfold sbind at 1, sret at 1. unfold sbind at 1, sout at 1. unfold uadd. rewrite wrap_in by lia. reflexivity. }
    destruct (op_len o) as [|l|l|l]; cbn [extent_ok] in Ol.
    - apply Rnd; [|exact Fit|].
      + pose proof (bits_ge t Ht). split; [lia|]. pose proof (P_word t Ht). lia.
      + assert (npages t (off + 1) = 1) by (apply npages_unique; lia). nia.
    - subst n. apply Ex, Fit.
    - apply Rnd; [exact Ol|exact Fit|]. destruct AL as [A1 A2]. apply Z.mod_divide in A2 as [k A2]; [|lia].
      rewrite (npages_unique t HP (off + l) k); lia.
    - subst n. apply Ex, Fit.
  Qed.
  Lemma alloc_grant o n w a q : options_ok t o -> alloc_fits t o -> op_protect o <> ReadOnly -> alloc_len t o n -> 0 <= n ->
    0 < op_offset o mod P + n -> w_orc w = Grant a :: q -> range_ok t a (op_offset o mod P + n) = true ->
    (forall p, a / P <= p < a / P + npages t (op_offset o mod P + n) -> w_vm w p = None) ->
    exists w', alloc t o w = (Ret {| m_ptr := ptr_add t a (op_offset o mod P); m_len := n |}, w').
  Proof.
    intros O Fit Np AL Hn Tp Q R Fr. rewrite (alloc_eq o n w O Fit AL Hn). rewrite os_map_anon_eq by exact Np.
    destruct (mmap_grant (op_offset o mod P + n) (prot_bits (op_protect o)) (prot_shares (op_protect o)) true (-1) 0 w a q Q Tp) as (w' & E); auto; try lia.
    unfold sbind, os_call. rewrite E. eexists. reflexivity.
  Qed.

  (** ** Mapping succeeds when the kernel does not refuse *)
  Lemma map_stage_eq o fd L n w : options_ok t o -> is_usize t L -> ~ out_of_file (op_len o) (op_offset o) L ->
    right_len (op_len o) (op_offset o) L n ->
    map_stage t o fd L w = sbind (os_call MapFile (sys_mmap t false 0 (n + op_offset o mod P) (prot_bits (op_protect o)) (prot_shares (op_protect o)) false fd
        (as_signed t (P * (op_offset o / P)))))
      (fun ptr => sret (Some {| m_ptr := ptr_add t ptr (op_offset o mod P); m_len := n |})) w.
  Proof.
    intros (_ & Ol & Oo) HL NO RL. unfold map_stage. cbv zeta. set (off := op_offset o) in *.
    unfold is_usize in HL, Oo. destruct (Z.ltb_spec L off) as [Lt|Ge]; [elim NO; left; exact Lt|].
    unfold sbind at 1, sout at 1. unfold usub at 1. rewrite wrap_in by lia.
    assert (El : extent_len (op_len o) (L - off) = Some n /\ 0 <= n <= L - off).
    { unfold extent_len, right_len, out_of_file in *. destruct (op_len o) as [|k|k|k]; cbn [extent_ok] in Ol; unfold is_usize in Ol; subst n.
      - split; [reflexivity|lia].
      - destruct (Z.ltb_spec (L - off) k); [elim NO; right; exists k; split; [auto|lia]|]. split; [reflexivity|lia].
      - destruct (Z.ltb_spec (L - off) k); [elim NO; right; exists k; split; [auto|lia]|]. split; [reflexivity|lia].
      - split; [reflexivity|lia]. }
    destruct El as [-> Len]. pose proof (page_div t Ht off) as [D1 D2]. pose proof (P_pos t Ht).
    unfold size_alloc. rewrite (alloc_page t Ht). unfold sbind at 1, sout at 1.
    rewrite (size_truncate_eq t (bits_pos0 t Ht) P (P_pow2 t Ht) (P_word t Ht)) by (split; lia).
    assert (Dv : 0 <= P * (off / P)). { pose proof (Z.div_pos off P ltac:(lia) ltac:(lia)). nia. }
    unfold sbind at 1, sout at 1. unfold usub at 1. rewrite wrap_in by lia.
    replace (off - P * (off / P)) with (off mod P) by lia.
    unfold sbind at 1, sout at 1. unfold uadd at 1. rewrite wrap_in by lia.
    rewrite os_map_file_eq. reflexivity.
  Qed.

  Lemma resize_to_grant fd f sz w x q : is_usize t sz -> sz < 2 ^ 63 -> w_fd w fd = Some f -> fd_w f = true -> w_orc w = Grant x :: q ->
    resize_to t fd sz w = (Ret sz, resize_obj t (fd_obj f) sz (set_orc w q)).
  Proof.
    intros U Lt Hf Hw Q. unfold resize_to, sbind, io_call, file_set_len.
    assert (Eu : as_u64 sz = sz) by (apply Z.mod_small; destruct U; lia). rewrite Eu.
    rewrite (proj2 (Z.ltb_ge (2 ^ 63 - 1) sz)) by lia. unfold sys_ftruncate, ask. rewrite Q. destruct U. rewrite (proj2 (Z.ltb_ge sz 0)) by lia.
    cbn [w_fd set_orc]. rewrite Hf, Hw. reflexivity.
  Qed.

  (** The kernel grants four calls in a row (more than any mapping makes). *)
  Lemma file_stage_grant o fd f w a q : options_ok t o -> w_fd w fd = Some f ->
    (op_truncate o = true \/ op_resize o <> ExtEnd -> fd_w f = true) ->
    (forall n, op_resize o = ExtExact n \/ op_resize o = ExtMin n \/ op_resize o = ExtMax n -> n < 2 ^ 63) ->
    w_orc w = Grant a :: Grant a :: Grant a :: Grant a :: q ->
    exists L w1 q', file_stage t o fd w = (Ret L, w1) /\ w_orc w1 = Grant a :: q'.
  Proof.
    intros (Or & _) Hf Hw Hn Q. unfold file_stage.
    unfold sbind at 1. unfold sbind at 1. unfold io_call at 1, file_len, sys_fstat, ask. rewrite Q. cbn [w_fd set_orc]. rewrite Hf. unfold sret at 1.
    set (l0 := as_usize t _). set (w0 := set_orc w _).
    assert (S1 : exists l1 w1 q1, ((if op_truncate o && (0 <? l0) then resize_to t fd 0 else sret l0) : ST error Z) w0 = (Ret l1, w1) /\ w_orc w1 = Grant a :: Grant a :: q1 /\ w_fd w1 fd = Some f).
    { destruct (op_truncate o && (0 <? l0)) eqn:B.
      - apply andb_prop in B as [B _]. rewrite (resize_to_grant fd f 0 w0 a (Grant a :: Grant a :: q)); auto; [|split; [lia|]|lia].
        + do 3 eexists. split; [reflexivity|]. split; [reflexivity|exact Hf].
        + apply Z.pow_pos_nonneg; [lia|]. pose proof (bits_ge t Ht). lia.
      - do 3 eexists. split; [reflexivity|]. split; [reflexivity|exact Hf]. }
    destruct S1 as (l1 & w1 & q1 & E1 & Q1 & F1). unfold sbind at 1. rewrite E1.
    assert (Rz : forall n, op_resize o = ExtExact n \/ op_resize o = ExtMin n \/ op_resize o = ExtMax n ->
       exists L w2 q', resize_to t fd n w1 = (Ret L, w2) /\ w_orc w2 = Grant a :: q').
    { intros n En. rewrite (resize_to_grant fd f n w1 a (Grant a :: q1)); auto.
      - do 3 eexists. split; reflexivity.
      - unfold extent_ok in Or. destruct En as [En|[En|En]]; rewrite En in Or; exact Or.
      - apply Hw. right. destruct En as [En|[En|En]]; rewrite En; discriminate. }
    destruct (op_resize o) as [|n|n|n] eqn:Er.
    - do 3 eexists. split; [reflexivity|exact Q1].
    - apply Rz. auto.
    - destruct (l1 <? n); [apply Rz; auto|]. do 3 eexists. split; [reflexivity|exact Q1].
    - destruct (n <? l1); [apply Rz; auto|]. do 3 eexists. split; [reflexivity|exact Q1].
  Qed.

  Lemma map_grant o fd f w a q : wf w -> options_ok t o -> w_fd w fd = Some f -> is_usize t (o_size (w_obj w (fd_obj f))) ->
    (op_truncate o = true \/ op_resize o <> ExtEnd \/ op_protect o = ReadWrite -> fd_w f = true) ->
    (forall n, op_resize o = ExtExact n \/ op_resize o = ExtMin n \/ op_resize o = ExtMax n -> n < 2 ^ 63) ->
    op_offset o < 2 ^ (t_bits t - 1) ->
    w_orc w = Grant a :: Grant a :: Grant a :: Grant a :: q ->
    let L := final_len (op_truncate o) (op_resize o) (o_size (w_obj w (fd_obj f))) in
    (out_of_file (op_len o) (op_offset o) L -> exists w', map_if t o fd w = (Ret None, w')) /\ (~ out_of_file (op_len o) (op_offset o) L -> forall n, right_len (op_len o) (op_offset o) L n ->
       (op_offset o mod P + n = 0 -> exists w', map_if t o fd w = (Err (last_os_error MapFile EINVAL), w')) /\ (0 < op_offset o mod P + n -> range_ok t a (op_offset o mod P + n) = true ->
         (forall p, a / P <= p < a / P + npages t (op_offset o mod P + n) -> w_vm w p = None) ->
         exists w', map_if t o fd w = (Ret (Some {| m_ptr := ptr_add t a (op_offset o mod P); m_len := n |}), w'))).
  Proof.
    intros W O Hf Us Hw Hn Ho Q L. pose proof (P_pos t Ht) as HP.
    destruct (file_stage_grant o fd f w a q O Hf) as (L' & w1 & q' & E & Q1); [tauto|exact Hn|exact Q|].
    pose proof (file_stage_spec t Ht o fd w f _ _ W O Hf E) as X. cbv zeta in X. destruct X as (T & _ & _ & UL & EL & _).
    unfold as_usize in EL. rewrite Z.mod_small in EL by exact Us. fold L in EL. subst L'.
    rewrite (map_if_stages t o fd w). unfold sbind. rewrite E.
    assert (F1 : w_fd w1 fd = Some f) by (rewrite (tc_fd _ _ _ T); exact Hf).
    split.
    - intros Out. destruct (map_stage t o fd L w1) as [r w'] eqn:Em. pose proof (map_stage_spec t Ht _ _ _ _ _ _ _ O F1 UL Em) as M.
      destruct r as [[m|]|e| | |]; try contradiction M; [elim (proj1 M); exact Out|eauto|elim (proj2 (proj2 M)); exact Out].
    - intros NO n RL. rewrite (map_stage_eq o fd L n w1 O UL NO RL).
      destruct O as (_ & _ & [O0 O1]). pose proof (page_div t Ht (op_offset o)) as [D1 D2].
      assert (Dv : 0 <= P * (op_offset o / P)). { pose proof (Z.div_pos (op_offset o) P ltac:(lia) ltac:(lia)). nia. }
      assert (Es : as_signed t (P * (op_offset o / P)) = P * (op_offset o / P)).
      { unfold as_signed. rewrite (proj2 (Z.ltb_lt _ _)) by lia. reflexivity. }
      rewrite Es. split.
      + intros Z0. unfold sbind, os_call, sys_mmap, ask. rewrite Q1. rewrite (Z.add_comm n), Z0. cbn. eexists. reflexivity.
      + intros Tp R Fr. rewrite (Z.add_comm n).
        destruct (mmap_grant (op_offset o mod P + n) (prot_bits (op_protect o)) (prot_shares (op_protect o)) false fd (P * (op_offset o / P)) w1 a q' Q1 Tp) as (w' & Em).
        * lia.
        * rewrite Z.mul_comm. apply Z.mod_mul. lia.
        * exact R.
        * intros p Hp. pose proof (tc_vm _ _ _ T p) as V. rewrite (Fr p Hp) in V. destruct (w_vm w1 p); [contradiction|reflexivity].
        * right. exists f. split; [exact F1|]. intros Sh. apply Hw. right. right. destruct (op_protect o); try discriminate Sh. reflexivity.
        * unfold sbind, os_call. rewrite Em. eexists. reflexivity.
  Qed.
End Claims.
