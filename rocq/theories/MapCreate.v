(** What creating a map does to the world: map_if, open_if, alloc. *)
From Coq Require Import Lia.
From Verif Require Import Base ErrorModel SizeModel SizeProofs OsModel MapModel MapSpec OsProofs MapProofs.

(** Mappings already there stay; on storage each byte is the old one (and then
    the cached one did not change either) or the cached one. *)
Record extends (w w' : world) : Prop := {
  ex_vm : forall p e, w_vm w p = Some e -> exists e', w_vm w' p = Some e' /\ same_place e e' /\
            (p_copy e' = p_copy e \/ (p_copy e' = None /\ p_shared e = false));
  ex_next : w_next w <= w_next w';
  ex_disk : forall o i, (o_disk (w_obj w' o) i = o_disk (w_obj w o) i /\ o_data (w_obj w' o) i = o_data (w_obj w o) i) \/
                        o_disk (w_obj w' o) i = o_data (w_obj w' o) i
}.

Lemma extends_trans w1 w2 w3 : extends w1 w2 -> extends w2 w3 -> extends w1 w3.
Proof.
  intros [V1 N1 D1] [V2 N2 D2]. split.
  - intros p e He. destruct (V1 p e He) as (e1 & H1 & S1 & C1). destruct (V2 p e1 H1) as (e2 & H2 & S2 & C2).
    exists e2. split; [exact H2|]. split; [eapply same_place_trans; eassumption|].
    destruct S1 as (_ & _ & _ & _ & _ & Es & _).
    destruct C2 as [C2|[C2 X]]; [destruct C1 as [C1|C1]; [left; congruence|right; rewrite C2; exact C1]|].
    right. split; congruence.
  - lia.
  - intros o i. destruct (D2 o i) as [[A B]|A]; [|right; exact A]. destruct (D1 o i) as [[A' B']|A'].
    + left. split; congruence.
    + right. congruence.
Qed.
Lemma touched_extends o w w' : touched o w w' -> extends w w'.
Proof.
  intros [V N F S O D]. split.
  - intros p e He. specialize (V p). rewrite He in V. destruct (w_vm w' p) as [e'|]; [|contradiction].
    exists e'. split; [reflexivity|]. destruct V as [V1 V2]. split; [exact V1|]. tauto.
  - lia.
  - intros o' i. destruct (Z.eq_dec o' o) as [->|Ho]; [apply D|]. rewrite (O o' Ho). left. auto.
Qed.
Lemma quiet_extends w w' : quiet w w' -> extends w w'.
Proof. intros Q. exact (touched_extends 0 _ _ (quiet_touched 0 _ _ Q)). Qed.

Lemma wf_change w w' : wf w ->
  (forall p e', w_vm w' p = Some e' -> (exists e, w_vm w p = Some e /\ p_obj e' = p_obj e) \/ p_obj e' < w_next w') ->
  w_next w <= w_next w' ->
  (forall fd f, w_fd w' fd = Some f -> w_fd w fd = Some f \/ (0 <= fd /\ fd_obj f < w_next w')) ->
  (forall path o, w_fs w' path = Some o -> w_fs w path = Some o \/ o < w_next w') ->
  (forall o, o_size (w_obj w' o) = o_size (w_obj w o) \/ 0 <= o_size (w_obj w' o) < 2 ^ 64) ->
  wf w'.
Proof.
  intros [V F S Z] HV HN HF HS HZ. split.
  - intros p e He. destruct (HV p e He) as [(e0 & E0 & ->)|H]; [|exact H]. specialize (V p e0 E0). lia.
  - intros fd f Hf. destruct (HF fd f Hf) as [H|H]; [|exact H]. destruct (F fd f H). lia.
  - intros path o Ho. destruct (HS path o Ho) as [H|H]; [|exact H]. specialize (S path o H). lia.
  - intros o. destruct (HZ o) as [->|H]; [apply Z|exact H].
Qed.

Lemma wf_quiet w w' : wf w -> quiet w w' -> wf w'.
Proof.
  intros W [V O N F S]. apply (wf_change _ _ W); rewrite ?V, ?O, ?N, ?F, ?S; eauto; lia.
Qed.

Section Create.
  Variable t : target.
  Hypothesis Ht : posix_target t.
  Notation P := (t_page t).

  Lemma usize_64 x : is_usize t x -> 0 <= x < 2 ^ 64.
  Proof.
    intros [A B]. split; [exact A|]. destruct Ht as [([E|E] & _) _]; rewrite E in B; lia.
  Qed.

  Lemma wf_touched o w w' : wf w -> touched o w w' ->
    (o_size (w_obj w' o) = o_size (w_obj w o) \/ is_usize t (o_size (w_obj w' o))) -> wf w'.
  Proof.
    intros W [V N F S O D] Z. apply (wf_change _ _ W).
    - intros p e' He. specialize (V p). rewrite He in V. destruct (w_vm w p) as [e|]; [|contradiction].
      left. exists e. split; [reflexivity|]. exact (proj1 (proj1 V)).
    - lia.
    - rewrite F. auto.
    - rewrite S. auto.
    - intros o'. destruct (Z.eq_dec o' o) as [->|Ho].
      + destruct Z as [Z|Z]; [left; exact Z|right; apply usize_64, Z].
      + left. rewrite O by exact Ho. reflexivity.
  Qed.

  Lemma created_wf w w' m o off p maxw : wf w -> created t w w' m o off p maxw -> o < w_next w' ->
    w_next w <= w_next w' -> w_fd w' = w_fd w -> w_fs w' = w_fs w ->
    (forall o, o_size (w_obj w' o) = o_size (w_obj w o) \/ 0 <= o_size (w_obj w' o) < 2 ^ 64) -> wf w'.
  Proof.
    intros W C Ho Hn Hf Hs Hz. apply (wf_change _ _ W); try assumption; rewrite ?Hf, ?Hs; auto.
    intros q e He.
    destruct (in_pages_cases (first_page t m) (page_count t m) q) as [[_ I]|[_ I]].
    - right. destruct (bk_pages _ _ _ _ _ _ _ (cr_backed _ _ _ _ _ _ _ _ C) q I) as (e' & E' & -> & _) || idtac.
      destruct (bk_pages _ _ _ _ _ _ _ (cr_backed _ _ _ _ _ _ _ _ C) q I) as (e' & E' & Eo & _).
      rewrite He in E'. injection E' as <-. rewrite Eo. exact Ho.
    - left. rewrite (cr_rest _ _ _ _ _ _ _ _ C q I) in He. eauto.
  Qed.

  Lemma created_keeps w w' m o off p maxw q e : created t w w' m o off p maxw -> w_vm w q = Some e -> w_vm w' q = Some e.
  Proof.
    intros C He. rewrite (cr_rest _ _ _ _ _ _ _ _ C q); [exact He|].
    intros I. rewrite (cr_free _ _ _ _ _ _ _ _ C q I) in He. discriminate He.
  Qed.

  (** ** map_if *)

  (** The file part: what [truncate] and [resize] did to object [ob]. *)
  Record file_done (o : options) (ob : Z) (w w1 : world) : Prop := {
    fdn_touched : touched ob w w1;
    fdn_wf : wf w1;
    fdn_size : o_size (w_obj w1 ob) = o_size (w_obj w ob) \/ is_usize t (o_size (w_obj w1 ob));
    fdn_shrink : is_usize t (o_size (w_obj w ob)) -> o_size (w_obj w1 ob) < o_size (w_obj w ob) ->
      op_truncate o = true \/ (exists n, op_resize o = ExtExact n) \/ (exists n, op_resize o = ExtMax n)
  }.
  Record file_right (o : options) (ob : Z) (w w1 : world) (L : Z) : Prop := {
    fr_usize : is_usize t L;
    fr_len : L = final_len (op_truncate o) (op_resize o) (as_usize t (o_size (w_obj w ob)));
    fr_le : L <= o_size (w_obj w1 ob);
    fr_eq : is_usize t (o_size (w_obj w ob)) -> o_size (w_obj w1 ob) = L;
    fr_data : is_usize t (o_size (w_obj w ob)) -> forall i, i < L -> o_data (w_obj w1 ob) i =
      if i <? kept_len (op_truncate o) (op_resize o) (o_size (w_obj w ob)) then o_data (w_obj w ob) i else 0
  }.

  Lemma map_if_spec o fd w r w' : wf w -> options_ok t o -> map_if t o fd w = (r, w') ->
    match w_fd w fd with
    | None => exists e, r = Err e /\ e_op e = MapFile /\ quiet w w'
    | Some f =>
      exists w1, file_done o (fd_obj f) w w1 /\
      match r with
      | Ret None => exists L, w' = w1 /\ file_right o (fd_obj f) w w1 L /\ out_of_file (op_len o) (op_offset o) L
      | Ret (Some m) => exists L, file_right o (fd_obj f) w w1 L /\ ~ out_of_file (op_len o) (op_offset o) L /\
          right_len (op_len o) (op_offset o) L (m_len m) /\
          (op_protect o = ReadWrite -> fd_w f = true) /\
          created t w1 w' m (fd_obj f) (op_offset o) (op_protect o) (negb (prot_shares (op_protect o)) || fd_w f) /\
          same_files w1 w'
      | Err e => e_op e = MapFile /\ quiet w1 w'
      | _ => False
      end
    end.
  Proof.
    intros W O H. rewrite map_if_stages in H. destruct (w_fd w fd) as [f|] eqn:Ef.
    - assert (FD : forall r w1, file_stage t o fd w = (r, w1) -> file_done o (fd_obj f) w w1).
      { intros r1 w1 E. destruct (file_stage_spec t Ht o fd w f r1 w1 W O Ef E) as (T & Z & Sh & _).
        split; try assumption. exact (wf_touched _ _ _ W T Z). }
      apply sbind_ret in H as [(L & w1 & E & H)|H].
      + exists w1. split; [exact (FD _ _ E)|].
        destruct (file_stage_spec t Ht o fd w f _ w1 W O Ef E) as (T & Z & Sh & UL & EL & LL & SL & _ & DL).
        assert (FR : file_right o (fd_obj f) w w1 L).
        { split; try assumption. intros U. specialize (DL U). unfold as_usize in DL. rewrite (Z.mod_small _ _ U) in DL. exact DL. }
        assert (Hf1 : w_fd w1 fd = Some f) by (rewrite (tc_fd _ _ _ T); exact Ef).
        pose proof (map_stage_spec t Ht o fd f L w1 r w' O Hf1 UL H) as M.
        destruct r as [[m|]|e| | |]; try contradiction M.
        * exists L. tauto.
        * exists L. tauto.
        * tauto.
      + destruct H as [(e & E & ->)|[(E & ->)|[(E & ->)|(E & ->)]]];
          pose proof (FD _ _ E) as FDE;
          destruct (file_stage_spec t Ht o fd w f _ w' W O Ef E) as (_ & _ & _ & C); try contradiction C.
        exists w'. split; [exact FDE|]. split; [exact C|apply quiet_refl].
    - apply sbind_ret in H as [(L & w1 & E & H)|H].
      + exfalso. unfold file_stage, sbind, io_call, file_len in E.
        destruct (sys_fstat fd w) as [r1 w2] eqn:Es. apply fstat_spec in Es as [Q C].
        destruct r1 as [n|e| | |]; try contradiction C; [|discriminate E].
        destruct C as (f & Ef' & _). congruence.
      + unfold file_stage, sbind, io_call, file_len in H.
        destruct (sys_fstat fd w) as [r1 w2] eqn:Es. apply fstat_spec in Es as [Q C].
        destruct r1 as [n|e| | |]; try contradiction C.
        * destruct C as (f & Ef' & _). congruence.
        * destruct H as [(e' & E & ->)|[(E & ->)|[(E & ->)|(E & ->)]]]; try discriminate E.
          injection E as <- <-. eexists. split; [reflexivity|]. split; [reflexivity|exact Q].
  Qed.

  Lemma same_files_extends w w' m o off p maxw : created t w w' m o off p maxw -> same_files w w' -> extends w w'.
  Proof.
    intros C [O N F S]. split.
    - intros q e He. exists e. split; [exact (created_keeps _ _ _ _ _ _ _ _ _ C He)|]. split; [apply same_place_refl|auto].
    - lia.
    - intros o' i. rewrite O. auto.
  Qed.

  (** The same in a coarser form, good for histories. *)
  Lemma map_if_extends o fd w r w' : wf w -> options_ok t o -> map_if t o fd w = (r, w') ->
    extends w w' /\ wf w' /\ w_fd w' = w_fd w /\ w_fs w' = w_fs w /\ w_next w' = w_next w.
  Proof.
    intros W O H. pose proof (map_if_spec o fd w r w' W O H) as M. destruct (w_fd w fd) as [f|] eqn:Ef.
    - destruct M as (w1 & [T W1 _ _] & M). pose proof (touched_extends _ _ _ T) as X1.
      pose proof (tc_fd _ _ _ T) as F1. pose proof (tc_fs _ _ _ T) as S1. pose proof (tc_next _ _ _ T) as N1.
      destruct r as [[m|]|e| | |]; try contradiction M.
      + destruct M as (L & _ & _ & _ & _ & C & SF). pose proof SF as [O2 N2 F2 S2].
        split; [eapply extends_trans; [exact X1|eapply same_files_extends; eassumption]|].
        split; [|split; [congruence|split; [congruence|lia]]].
        eapply (created_wf _ _ _ _ _ _ _ W1 C); try assumption; try lia.
        * rewrite N2, N1. exact (proj2 (wf_fd _ W _ _ Ef)).
        * intros o'. left. rewrite O2. reflexivity.
      + destruct M as (L & -> & _). auto.
      + destruct M as [_ Q]. split; [eapply extends_trans; [exact X1|apply quiet_extends, Q]|].
        split; [exact (wf_quiet _ _ W1 Q)|]. destruct Q as [_ _ N2 F2 S2]. split; [congruence|]. split; congruence.
    - destruct M as (e & -> & _ & Q). split; [apply quiet_extends, Q|]. split; [exact (wf_quiet _ _ W Q)|].
      destruct Q as [_ _ N2 F2 S2]. auto.
  Qed.

  (** ** Opening *)
  Lemma open_spec path wr creat excl trunc w r w' : wf w -> sys_open t path wr creat excl trunc w = (r, w') ->
    match r with
    | Ret fd => 0 <= fd /\ w_fd w fd = None /\ exists ob,
        (w_fd w' = put (w_fd w) fd (Some {| fd_obj := ob; fd_w := wr |})) /\ w_fs w' path = Some ob /\
        (forall q, q <> path -> w_fs w' q = w_fs w q) /\
        match w_fs w path with
        | Some o => ob = o /\ (creat && excl = false) /\
            exists w1, touched o w w1 /\ w_obj w' = w_obj w1 /\ w_vm w' = w_vm w1 /\ w_next w' = w_next w /\
            (o_size (w_obj w1 o) = if trunc then 0 else o_size (w_obj w o)) /\
            (forall i, i < o_size (w_obj w1 o) -> o_data (w_obj w1 o) i = o_data (w_obj w o) i)
        | None => creat = true /\ ob = w_next w /\ w_next w' = w_next w + 1 /\ w_vm w' = w_vm w /\
            w_obj w' = put (w_obj w) ob {| o_size := 0; o_data := fun _ => 0; o_disk := fun _ => 0 |}
        end
    | Err _ => quiet w w'
    | _ => False
    end.
  Proof.
    intros W H. unfold sys_open in H. apply ask_inv in H as [(e & -> & Q)|(a & o & Ho & H)]; [exact Q|].
    destruct (new_fd_ok (set_orc w o) a) eqn:En; cbn [negb] in H; [|injection H as <- <-; apply quiet_orc].
    unfold new_fd_ok in En. apply andb_prop in En as [En1 En2]. apply Z.leb_le in En1. cbn [w_fd set_orc] in En2.
    destruct (w_fd w a) eqn:Ea; [discriminate En2|]. cbn [w_fs set_orc] in H.
    destruct (w_fs w path) as [ob|] eqn:Ep.
    - destruct (creat && excl) eqn:Ec; [injection H as <- <-; apply quiet_orc|].
      injection H as <- <-. split; [exact En1|]. split; [exact Ea|]. exists ob.
      cbn [w_obj set_orc]. destruct (trunc && (0 <? o_size (w_obj w ob))) eqn:Et.
      + apply andb_prop in Et as [-> _].
        destruct (resize_obj_spec t ob 0 (set_orc w o)) as (V & N & F & S & O & Sz & D & K).
        cbn [w_fd w_fs set_fd w_obj w_vm w_next]. rewrite F, S, N. cbn [w_fd w_fs set_orc w_next].
        split; [reflexivity|]. split; [exact Ep|]. split; [reflexivity|]. split; [reflexivity|]. split; [reflexivity|].
        exists (resize_obj t ob 0 (set_orc w o)). split; [apply resize_touched|].
        split; [reflexivity|]. split; [reflexivity|]. split; [reflexivity|]. split; [exact Sz|].
        intros i Hi. rewrite D. cbn [w_obj set_orc]. pose proof (wf_size _ W ob).
        rewrite Z.min_r by lia. destruct (Z.ltb_spec i 0); [reflexivity|lia].
      + cbn. split; [reflexivity|]. split; [exact Ep|]. split; [reflexivity|]. split; [reflexivity|]. split; [reflexivity|].
        exists w. split; [apply touched_refl|]. split; [reflexivity|]. split; [reflexivity|]. split; [reflexivity|].
        split; [|reflexivity]. destruct trunc; [|reflexivity]. cbn in Et. apply Z.ltb_ge in Et. pose proof (wf_size _ W ob). lia.
    - destruct creat eqn:Ec; cbn [negb] in H; injection H as <- <-; [|apply quiet_orc].
      split; [exact En1|]. split; [exact Ea|]. exists (w_next w). cbn.
      split; [reflexivity|]. split; [apply put_same|]. split; [intros q Hq; apply put_other, Hq|].
      repeat split.
  Qed.

  Lemma open_extends path wr creat excl trunc w fd w' : wf w -> sys_open t path wr creat excl trunc w = (Ret fd, w') ->
    extends w w' /\ wf w' /\ exists ob, w_fd w' = put (w_fd w) fd (Some {| fd_obj := ob; fd_w := wr |}) /\
    w_fd w fd = None /\ 0 <= fd.
  Proof.
    intros W H. apply (open_spec _ _ _ _ _ _ _ _ W) in H as (Hf & Hn & ob & F & S & S' & M).
    assert (X : extends w w' /\ w_next w <= w_next w' /\ ob < w_next w' /\
      (forall p e', w_vm w' p = Some e' -> (exists e, w_vm w p = Some e /\ p_obj e' = p_obj e) \/ p_obj e' < w_next w') /\
      (forall o, o_size (w_obj w' o) = o_size (w_obj w o) \/ 0 <= o_size (w_obj w' o) < 2 ^ 64)).
    { destruct (w_fs w path) as [o|] eqn:Ep.
      - destruct M as (-> & _ & w1 & T & O & V & N & Z & _). split; [|split; [lia|split; [|split]]].
        + pose proof (touched_extends _ _ _ T) as [XV XN XD]. split; rewrite ?V, ?O, ?N; try assumption. lia.
        + rewrite N. exact (wf_fs _ W _ _ Ep).
        + rewrite V. intros p e' He. pose proof (tc_vm _ _ _ T p) as TV. rewrite He in TV.
          destruct (w_vm w p) as [e|]; [|contradiction]. left. exists e. split; [reflexivity|]. exact (proj1 (proj1 TV)).
        + intros o'. rewrite O. destruct (Z.eq_dec o' o) as [->|Ho].
          * rewrite Z. destruct trunc; [right; lia|left; reflexivity].
          * left. rewrite (tc_obj _ _ _ T) by exact Ho. reflexivity.
      - destruct M as (_ & -> & N & V & O). split; [|split; [lia|split; [lia|split]]].
        + split; [|lia|].
          * rewrite V. intros p e He. exists e. split; [exact He|]. split; [apply same_place_refl|auto].
          * intros o i. rewrite O. destruct (Z.eq_dec o (w_next w)) as [->|Ho].
            -- rewrite put_same. right. reflexivity.
            -- rewrite put_other by exact Ho. auto.
        + rewrite V. eauto.
        + intros o. rewrite O. destruct (Z.eq_dec o (w_next w)) as [->|Ho].
          * rewrite put_same. right. cbn. lia.
          * rewrite put_other by exact Ho. auto. }
    destruct X as (X & N & Lo & V & Z). split; [exact X|]. split; [|exists ob; auto].
    apply (wf_change _ _ W); try assumption.
    - rewrite F. intros fd' f'. unfold put. destruct (Z.eqb_spec fd' fd) as [->|]; [|auto].
      intros E. injection E as <-. right. cbn. auto.
    - intros q o Ho. destruct (Z.eq_dec q path) as [->|Hq]; [|left; rewrite <- S'; assumption].
      right. congruence.
  Qed.

  (** [File] creation through std. *)
  Lemma file_open_spec oo path w r w' : file_open t oo path w = (r, w') ->
    match r with
    | Ret fd => (oo_write oo = false -> oo_create oo = false /\ oo_create_new oo = false /\ oo_truncate oo = false) /\
        sys_open t path (oo_write oo) (oo_create oo || oo_create_new oo) (oo_create_new oo)
              (oo_truncate oo && negb (oo_create_new oo)) w = (Ret fd, w')
    | Err _ => quiet w w'
    | _ => False
    end.
  Proof.
    unfold file_open. destruct (negb (oo_write oo) && (oo_create oo || oo_create_new oo || oo_truncate oo)) eqn:E.
    - intros H. injection H as <- <-. apply quiet_refl.
    - destruct (sys_open _ _ _ _ _ _ w) as [r1 w1] eqn:Eo. intros H.
      assert (K : match r1 with Ret _ => True | Err _ => quiet w w1 | _ => False end).
      { unfold sys_open in Eo. apply ask_inv in Eo as [(e & -> & Q)|(a & o & Ho & Eo)]; [exact Q|].
        destruct (negb (new_fd_ok (set_orc w o) a)); [injection Eo as <- <-; apply quiet_orc|].
        destruct (w_fs (set_orc w o) path) as [ob|].
        - destruct ((oo_create oo || oo_create_new oo) && oo_create_new oo); injection Eo as <- <-; [apply quiet_orc|exact I].
        - destruct (negb (oo_create oo || oo_create_new oo)); injection Eo as <- <-; [apply quiet_orc|exact I]. }
      destruct r1 as [fd|e| | |]; try contradiction K; injection H as <- <-; [|exact K].
      split; [|reflexivity]. intros Ew. rewrite Ew in E. cbn in E.
      destruct (oo_create oo), (oo_create_new oo), (oo_truncate oo); try discriminate E; auto.
  Qed.

  Lemma put_undo {A} (f : Z -> option A) i x j : f i = None -> put (put f i (Some x)) i None j = f j.
  Proof.
    intros H. unfold put. destruct (Z.eqb_spec j i) as [->|]; congruence.
  Qed.

  Lemma close_extends fd w : wf w -> let w' := snd (sys_close fd w) in
    extends w w' /\ wf w' /\ w_vm w' = w_vm w /\ w_obj w' = w_obj w /\ w_next w' = w_next w /\ w_fs w' = w_fs w /\
    w_fd w' = put (w_fd w) fd None.
  Proof.
    intros W. cbv zeta. cbn. split; [|split; [|repeat split]].
    - split; cbn; [|lia|auto]. intros p e He. exists e. split; [exact He|]. split; [apply same_place_refl|auto].
    - apply (wf_change _ _ W); cbn; eauto; try lia. intros fd' f. unfold put. destruct (fd' =? fd); [discriminate|auto].
  Qed.

  (** open_if = open the file, map it, close it again on error *)
  Lemma open_if_spec o path w r w' : wf w -> options_ok t o -> open_if t o path w = (r, w') ->
    extends w w' /\ wf w' /\
    match r with
    | Ret (m, fd) => exists w1, file_open t (op_open o) path w = (Ret fd, w1) /\ map_if t o fd w1 = (Ret m, w')
    | Err e => e_op e = MapFile /\ (forall fd, w_fd w' fd = w_fd w fd)
    | _ => False
    end.
  Proof.
    intros W O H. unfold open_if in H. apply sbind_ret in H as [(fd & w1 & E & H)|H].
    - unfold io_call in E. destruct (file_open t (op_open o) path w) as [r1 w1'] eqn:Eo.
      destruct r1 as [fd'|e| | |]; try discriminate E. injection E as <- <-.
      pose proof (file_open_spec _ _ _ _ _ Eo) as [_ So].
      destruct (open_extends _ _ _ _ _ _ _ _ W So) as (X1 & W1 & ob & F1 & Fn & Fg).
      unfold sbind, closing in H. destruct (map_if t o fd' w1') as [r2 w2] eqn:Em.
      destruct (map_if_extends _ _ _ _ _ W1 O Em) as (X2 & W2 & F2 & S2 & N2).
      pose proof (map_if_spec _ _ _ _ _ W1 O Em) as M. rewrite F1, put_same in M.
      destruct M as (w3 & _ & M).
      destruct r2 as [m|e| | |]; try contradiction M.
      + injection H as <- <-. split; [eapply extends_trans; eassumption|]. split; [exact W2|]. exists w1'. split; [exact Eo || reflexivity|exact Em].
      + injection H as <- <-. destruct (close_extends fd' w2 W2) as (X3 & W3 & _ & _ & _ & _ & F3).
        split; [eapply extends_trans; [exact X1|eapply extends_trans; eassumption]|]. split; [exact W3|].
        split; [exact (proj1 M)|]. intros fd. change (put (w_fd w2) fd' None fd = w_fd w fd). rewrite F2, F1. apply put_undo, Fn.
    - unfold io_call in H. destruct (file_open t (op_open o) path w) as [r1 w1'] eqn:Eo.
      pose proof (file_open_spec _ _ _ _ _ Eo) as So.
      destruct r1 as [fd'|e| | |]; try contradiction So;
        (destruct H as [(e' & E & ->)|[(E & ->)|[(E & ->)|(E & ->)]]]; try discriminate E).
      injection E as <- <-. split; [apply quiet_extends, So|]. split; [exact (wf_quiet _ _ W So)|].
      split; [reflexivity|]. rewrite (q_fd _ _ So). reflexivity.
  Qed.

  (** ** alloc *)

  Lemma os_map_anon_eq len p : p <> ReadOnly ->
    os_map_anon t len p = os_call MapAnonymous (sys_mmap t false 0 len (prot_bits p) (prot_shares p) true (-1) 0).
  Proof. destruct p; try reflexivity. contradiction. Qed.

  Lemma os_map_anon_ro len w : wf w -> exists e w',
    os_map_anon t len ReadOnly w = (Err e, w') /\ e_op e = MapAnonymous /\ quiet w w'.
  Proof.
    intros W. unfold os_map_anon. destruct (os_call _ _ w) as [r w'] eqn:E. apply os_call_inv in E.
    destruct r as [a|e| | |]; try (apply mmap_spec in E; contradiction E).
    - apply mmap_spec in E. destruct E as (_ & _ & f & Ef & _). apply (wf_fd _ W) in Ef. lia.
    - destruct E as (x & E & ->). apply mmap_spec in E. exists (last_os_error MapAnonymous x), w'. auto.
  Qed.

  Lemma alloc_round {E} off l : 0 <= off < P -> is_usize t l ->
    (let* a := uadd (E:=E) t off l in let* r := size_round t (size_alloc t) a in usub t r off) =
    if off + l + P <? 2 ^ t_bits t then Ret (P * npages t (off + l) - off)
    else if t_checks t then Panic
    else (let* a := uadd (E:=E) t off l in let* r := size_round t (size_alloc t) a in usub t r off).
  Proof.
    intros Ho [Hl1 Hl2]. pose proof (P_pos t Ht). unfold size_alloc. rewrite (alloc_page t Ht).
    destruct (Z.ltb_spec (off + l + P) (2 ^ t_bits t)) as [Lt|Ge].
    - unfold uadd at 1. rewrite wrap_in by lia. cbn [obind].
      rewrite (size_round_in t (bits_pos0 t Ht) P (P_pow2 t Ht) (P_word t Ht)) by lia. cbn [obind].
      change ((off + l + P - 1) / P) with (npages t (off + l)).
      pose proof (npages_bounds t (P_pos t Ht) (off + l)). unfold usub. rewrite wrap_in by lia. reflexivity.
    - destruct (t_checks t) eqn:Ec; [|reflexivity].
      unfold uadd at 1. destruct (Z_lt_le_dec (off + l) (2 ^ t_bits t)) as [A|A].
      + rewrite wrap_in by lia. cbn [obind]. unfold size_round, uadd. rewrite wrap_out by lia. rewrite Ec. reflexivity.
      + rewrite wrap_out by lia. rewrite Ec. reflexivity.
  Qed.

  Lemma alloc_spec o w r w' : wf w -> options_ok t o -> alloc_fits t o \/ t_checks t = true ->
    alloc t o w = (r, w') ->
    match r with
    | Ret m => alloc_fits t o /\ alloc_len t o (m_len m) /\ op_protect o <> ReadOnly /\
        created t w w' m (w_next w) (op_offset o mod P) (op_protect o) true /\
        w_next w' = w_next w + 1 /\ w_fd w' = w_fd w /\ w_fs w' = w_fs w /\
        w_obj w' = put (w_obj w) (w_next w)
          {| o_size := P * page_count t m; o_data := fun _ => 0; o_disk := fun _ => 0 |} /\
        P * page_count t m < 2 ^ t_bits t
    | Err e => e_op e = MapAnonymous /\ quiet w w'
    | Panic => ~ alloc_fits t o /\ w' = w
    | _ => False
    end.
  Proof.
    intros W (_ & Ol & Oo) Fit H. pose proof (P_pos t Ht) as HP. pose proof (page_div t Ht (op_offset o)) as [D1 D2].
    unfold alloc in H. unfold sbind at 1, sout at 1 in H. unfold size_page in H.
    rewrite (size_offset_eq t (bits_pos0 t Ht) P (P_pow2 t Ht) (P_word t Ht)) in H by exact Oo.
    set (off := op_offset o mod P) in *.
    assert (St : (exists n, 0 <= n /\ alloc_fits t o /\ alloc_len t o n /\ off + n < 2 ^ t_bits t /\
        sbind (sout (uadd t off n)) (fun total => sbind (os_map_anon t total (op_protect o))
          (fun ptr => sret {| m_ptr := ptr_add t ptr off; m_len := n |})) w = (r, w')) \/
        (r = Panic /\ ~ alloc_fits t o /\ w' = w)).
    { assert (Rnd : forall l, is_usize t l ->
        (op_len o = ExtMin l \/ (op_len o = ExtEnd /\ l = 1)) ->
        sbind (sout (let* a := uadd t off l in let* r := size_round t (size_alloc t) a in usub t r off))
          (fun n => sbind (sout (uadd t off n)) (fun total => sbind (os_map_anon t total (op_protect o))
          (fun ptr => sret {| m_ptr := ptr_add t ptr off; m_len := n |}))) w = (r, w') ->
        (exists n, 0 <= n /\ alloc_fits t o /\ alloc_len t o n /\ off + n < 2 ^ t_bits t /\
        sbind (sout (uadd t off n)) (fun total => sbind (os_map_anon t total (op_protect o))
          (fun ptr => sret {| m_ptr := ptr_add t ptr off; m_len := n |})) w = (r, w')) \/
        (r = Panic /\ ~ alloc_fits t o /\ w' = w)).
      { intros l Ul El K.
        assert (Ft : alloc_fits t o <-> off + l + P < 2 ^ t_bits t).
        { unfold alloc_fits. destruct El as [-> | [-> ->]]; fold off; tauto. }
        rewrite (alloc_round off l D2 Ul) in K. destruct (Z.ltb_spec (off + l + P) (2 ^ t_bits t)) as [Lt|Ge].
        - left. exists (P * npages t (off + l) - off).
          pose proof (npages_bounds t HP (off + l)) as NB. destruct Ul as [U1 U2].
          split; [lia|]. split; [apply Ft, Lt|]. split; [|split; [lia|exact K]].
          unfold alloc_len. fold off. destruct El as [-> | [-> ->]].
          + split; [lia|]. replace (off + (P * npages t (off + l) - off)) with (npages t (off + l) * P) by lia. apply Z.mod_mul. lia.
          + assert (npages t (off + 1) = 1) by (apply npages_unique; lia). nia.
        - destruct Fit as [Fit|Fit]; [apply Ft in Fit; lia|]. rewrite Fit in K. injection K as <- <-.
          right. split; [reflexivity|]. split; [|reflexivity]. rewrite Ft. lia. }
      assert (Ex : forall l, is_usize t l -> (op_len o = ExtExact l \/ op_len o = ExtMax l) ->
        sbind (sret l)
          (fun n => sbind (sout (uadd t off n)) (fun total => sbind (os_map_anon t total (op_protect o))
          (fun ptr => sret {| m_ptr := ptr_add t ptr off; m_len := n |}))) w = (r, w') ->
        (exists n, 0 <= n /\ alloc_fits t o /\ alloc_len t o n /\ off + n < 2 ^ t_bits t /\
        sbind (sout (uadd t off n)) (fun total => sbind (os_map_anon t total (op_protect o))
          (fun ptr => sret {| m_ptr := ptr_add t ptr off; m_len := n |})) w = (r, w')) \/
        (r = Panic /\ ~ alloc_fits t o /\ w' = w)).
      { intros l Ul El K.
        assert (Ft : alloc_fits t o <-> off + l < 2 ^ t_bits t).
        { unfold alloc_fits. destruct El as [-> | ->]; fold off; tauto. }
        destruct Ul as [U1 U2].
        destruct (Z_lt_le_dec (off + l) (2 ^ t_bits t)) as [Lt|Ge].
        - left. exists l. split; [lia|]. split; [apply Ft, Lt|]. split; [|split; [lia|exact K]].
          unfold alloc_len. destruct El as [-> | ->]; reflexivity.
        - destruct Fit as [Fit|Fit]; [apply Ft in Fit; lia|].
          unfold sbind, sret, sout, uadd in K. rewrite wrap_out in K by lia. rewrite Fit in K. injection K as <- <-.
          right. split; [reflexivity|]. split; [|reflexivity]. rewrite Ft. lia. }
      destruct (op_len o) as [|l|l|l] eqn:El; cbn [extent_ok] in Ol.
      - apply (Rnd 1); auto. pose proof (bits_ge t Ht). split; [lia|]. pose proof (P_word t Ht). lia.
      - apply (Ex l); auto.
      - apply (Rnd l); auto.
      - apply (Ex l); auto. }
    destruct St as [(n & Hn & Ft & AL & Hw & K)|(-> & NF & ->)]; [|auto].
    clear H. unfold sbind at 1, sout in K. unfold uadd in K. rewrite wrap_in in K by lia.
    destruct (op_protect o) eqn:Ep.
    1:{ destruct (os_map_anon_ro (off + n) w W) as (e & w1 & E & Op & Q). unfold sbind in K. rewrite E in K.
        injection K as <- <-. auto. }
    all: rewrite os_map_anon_eq in K by discriminate;
      apply sbind_ret in K as [(a & w1 & E & K)|[(e & E & ->)|[(E & ->)|[(E & ->)|(E & ->)]]]]; apply os_call_inv in E;
      try (apply mmap_spec in E; contradiction E);
      [|destruct E as (x & E & ->); apply mmap_spec in E; auto].
    all: apply mmap_spec in E; destruct E as (_ & _ & M & Nx & Ob); injection K as <- <-; cbn [m_len];
      rewrite Z.add_comm in M;
      (assert (Eo : off mod P = off) by (apply Z.mod_small; lia));
      (assert (Ed : off / P = 0) by (apply Z.div_small; lia));
      rewrite Z.div_0_l in M by lia; rewrite <- Ed in M; rewrite <- Eo in M at 1;
      (assert (Uo : is_usize t off) by (split; lia));
      (match type of M with mapped _ _ _ _ _ _ _ (prot_bits ?p) _ _ => destruct (mapped_created t Ht w w1 a n off _ p _ Uo Hn M) as (_ & _ & Pc & C) end);
      rewrite Eo in Pc, C;
      (split; [exact Ft|]); (split; [exact AL|]); (split; [discriminate|]); (split; [exact C|]);
      (split; [exact Nx|]); (split; [exact (mp_fd _ _ _ _ _ _ _ _ _ _ M)|]); (split; [exact (mp_fs _ _ _ _ _ _ _ _ _ _ M)|]);
      rewrite Pc; pose proof (mp_range _ _ _ _ _ _ _ _ _ _ M) as R; apply range_ok_iff in R as (R1 & R2 & R3);
      rewrite Eo in R3; (split; [rewrite Ob, (Z.add_comm n off); reflexivity|lia]).
  Qed.

  Lemma alloc_extends o w r w' : wf w -> options_ok t o -> alloc_fits t o \/ t_checks t = true ->
    alloc t o w = (r, w') -> extends w w' /\ wf w' /\ w_fd w' = w_fd w /\ w_fs w' = w_fs w.
  Proof.
    intros W O Fit H. pose proof (alloc_spec o w r w' W O Fit H) as A.
    destruct r as [m|e| | |]; try contradiction A.
    - destruct A as (_ & _ & _ & C & N & F & S & Ob & Sz).
      pose proof (cr_backed _ _ _ _ _ _ _ _ C) as B.
      split; [|split; [|auto]].
      + split; [|lia|].
        * intros q e He. exists e. split; [exact (created_keeps _ _ _ _ _ _ _ _ _ C He)|]. split; [apply same_place_refl|auto].
        * intros o' i. rewrite Ob. unfold put. destruct (o' =? w_next w); [right; reflexivity|auto].
      + apply (created_wf _ _ _ _ _ _ _ W C); try assumption; try lia.
        intros o'. rewrite Ob. unfold put. destruct (o' =? w_next w); [right|auto]. cbn.
        apply usize_64. split; [|exact Sz]. pose proof (P_pos t Ht).
        pose proof (npages_pos t (P_pos t Ht) _ (bk_cnt _ _ _ _ _ _ _ B)). unfold page_count. nia.
    - destruct A as [_ Q]. split; [apply quiet_extends, Q|]. split; [exact (wf_quiet _ _ W Q)|]. destruct Q; auto.
    - destruct A as [_ ->]. split; [apply quiet_extends, quiet_refl|]. auto.
  Qed.
End Create.
