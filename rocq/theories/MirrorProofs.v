(** Proofs about the POSIX ring allocation. *)
From Coq Require Import Lia.
From Verif Require Import Base ErrorModel SizeModel SizeProofs OsModel MapModel MapSpec OsProofs MapProofs
  RingMapModel RingMapSpec.

(** ** Answers consumed *)
Lemma ask_inv2 {A} (k : Z -> ST Z A) w r w' : ask k w = (r, w') ->
  (exists e, r = Err e /\ quiet w w' /\ (w_orc w' = [] /\ w_orc w = [] \/ w_orc w = Refuse e :: w_orc w')) \/
  (exists a o, w_orc w = Grant a :: o /\ k a (set_orc w o) = (r, w')).
Proof.
  unfold ask. destruct (w_orc w) as [|[e|a] o] eqn:E; intros H.
  - injection H as <- <-. left. eexists. split; [reflexivity|]. split; [apply quiet_refl|]. rewrite E. auto.
  - injection H as <- <-. left. eexists. split; [reflexivity|]. split; [apply quiet_orc|]. auto.
  - right. exists a, o. auto.
Qed.

(** The answers of [w'] are what is left of those of [w]. *)
Definition consumed (w w' : world) : Prop := exists q, w_orc w = q ++ w_orc w'.
Lemma consumed_refl w : consumed w w.
Proof. exists []. reflexivity. Qed.
Lemma consumed_trans w1 w2 w3 : consumed w1 w2 -> consumed w2 w3 -> consumed w1 w3.
Proof. intros (q & H) (q' & H'). exists (q ++ q'). rewrite H, H', app_assoc. reflexivity. Qed.
Lemma consumed_eq w w' : w_orc w = w_orc w' -> consumed w w'.
Proof. intros H. exists []. exact H. Qed.
Lemma consumed_one x w w' : w_orc w = x :: w_orc w' -> consumed w w'.
Proof. intros H. exists [x]. exact H. Qed.

(** Calls that never add answers. *)
Lemma ask_consumed {A} (k : Z -> ST Z A) w r w' :
  (forall a w r w', k a w = (r, w') -> w_orc w' = w_orc w) ->
  ask k w = (r, w') -> consumed w w'.
Proof.
  intros Hk H. apply ask_inv2 in H as [(e & _ & _ & [[H1 H2]|H])|(a & o & Ho & H)].
  - apply consumed_eq. congruence.
  - exact (consumed_one _ _ _ H).
  - apply Hk in H. cbn in H. apply (consumed_one (Grant a)). rewrite H. exact Ho.
Qed.

Lemma refused_last_after w1 w2 w3 : consumed w1 w2 -> refused_last w2 w3 -> refused_last w1 w3.
Proof.
  intros (q & H) [R|(q' & e & R)]; [left; exact R|right]. exists (q ++ q'), e. rewrite H, R, app_assoc. reflexivity.
Qed.
Lemma refused_some_after w1 w2 w3 : consumed w1 w2 -> refused_some w2 w3 -> refused_some w1 w3.
Proof.
  intros (q & H) [R|(q' & e & q'' & R)]; [left; exact R|right]. exists (q ++ q'), e, q''. rewrite H, R, app_assoc. reflexivity.
Qed.
Lemma refused_some_before w1 w2 w3 : refused_some w1 w2 -> consumed w2 w3 -> refused_some w1 w3.
Proof.
  intros [R|(q & e & q' & R)] (q2 & H).
  - left. rewrite R in H. destruct q2; [cbn in H; auto|discriminate].
  - right. exists q, e, (q' ++ q2). rewrite R, H, app_assoc. reflexivity.
Qed.

(** ** Names (memfd.rs:36-48) *)
Lemma digits_spec k : forall j n, (j <= k)%nat -> (0 < j)%nat -> 0 <= n < 10 ^ Z.of_nat j ->
  (0 < length (digits k n) <= j)%nat /\ Forall (fun b => 48 <= b <= 57) (digits k n).
Proof.
  induction k as [|k IH]; intros j n Hj H0 Hn; [lia|]. cbn [digits].
  pose proof (Z.mod_pos_bound n 10 ltac:(lia)).
  destruct (n <? 10) eqn:E.
  - cbn [app length]. split; [lia|]. constructor; [lia|constructor].
  - apply Z.ltb_ge in E. destruct j as [|[|j]]; [lia|cbn in Hn; lia|].
    assert (Hd : 0 <= n / 10 < 10 ^ Z.of_nat (S j)).
    { split; [apply Z.div_pos; lia|]. apply Z.div_lt_upper_bound; [lia|].
      replace (Z.of_nat (S (S j))) with (1 + Z.of_nat (S j)) in Hn by lia. rewrite Z.pow_add_r in Hn by lia. lia. }
    destruct (IH (S j) (n / 10) ltac:(lia) ltac:(lia) Hd) as [L F].
    rewrite app_length. cbn [length]. split; [lia|].
    apply Forall_app. split; [exact F|]. constructor; [lia|constructor].
Qed.

Lemma number_app l1 l2 acc : number acc (l1 ++ l2) = number (number acc l1) l2.
Proof. revert acc. induction l1 as [|b l1 IH]; intros acc; [reflexivity|]. cbn. apply IH. Qed.
Lemma number_zeros k l : number 0 (repeat 48 k ++ l) = number 0 l.
Proof. induction k as [|k IH]; [reflexivity|]. cbn. exact IH. Qed.
Lemma digits_value k : forall j n, (j <= k)%nat -> (0 < j)%nat -> 0 <= n < 10 ^ Z.of_nat j ->
  number 0 (digits k n) = n.
Proof.
  induction k as [|k IH]; intros j n Hj H0 Hn; [lia|]. cbn [digits].
  pose proof (Z.div_mod n 10 ltac:(lia)). pose proof (Z.mod_pos_bound n 10 ltac:(lia)).
  rewrite number_app. destruct (n <? 10) eqn:E.
  - apply Z.ltb_lt in E. cbn [number]. rewrite Z.mod_small by lia. lia.
  - apply Z.ltb_ge in E. destruct j as [|[|j]]; [lia|cbn in Hn; lia|].
    assert (Hd : 0 <= n / 10 < 10 ^ Z.of_nat (S j)).
    { split; [apply Z.div_pos; lia|]. apply Z.div_lt_upper_bound; [lia|].
      replace (Z.of_nat (S (S j))) with (1 + Z.of_nat (S j)) in Hn by lia. rewrite Z.pow_add_r in Hn by lia. lia. }
    rewrite (IH (S j) (n / 10) ltac:(lia) ltac:(lia) Hd). cbn [number]. lia.
Qed.

Lemma pad_spec n : 0 <= n < 10000000 ->
  let d := pad0 7 (to_decimal n) in
  length d = 7%nat /\ Forall (fun b => 48 <= b <= 57) d /\ number 0 d = n.
Proof.
  intros H. cbv zeta. unfold pad0, to_decimal.
  destruct (digits_spec 20 7 n ltac:(lia) ltac:(lia) ltac:(cbn; lia)) as [L F]. unfold zlen.
  rewrite app_length, repeat_length. unfold bytes, byte in *. split; [lia|]. split.
  - apply Forall_app. split; [|exact F]. apply Forall_forall. intros b Hb. apply repeat_spec in Hb. lia.
  - rewrite number_zeros. apply (digits_value 20 7); cbn; lia.
Qed.

(** The buffer between rounds: "/vmap-", seven bytes other than NUL, NUL. *)
Definition shm_prefix : bytes := name_prefix.
Definition good_buf (pb : bytes) : Prop :=
  exists d, length d = 7%nat /\ Forall (fun b => b <> 0) d /\ pb = shm_prefix ++ d ++ [0].

Lemma template_good : good_buf shm_template.
Proof. exists (repeat 88 7). split; [reflexivity|]. split; [|reflexivity]. repeat constructor; lia. Qed.

(** The name made from a clock reading. *)
Definition name_for (c : Z) : bytes := shm_prefix ++ pad0 7 (to_decimal (c mod 10 ^ 9 mod 10000000)).

Lemma shm_name_spec c pb : good_buf pb ->
  shm_name c pb = if c <? 0 then Panic else Ret (name_for c, name_for c ++ [0]).
Proof.
  intros (d & Ld & Fd & ->). unfold shm_name. destruct (c <? 0); [reflexivity|].
  assert (N : 0 <= c mod 10 ^ 9 mod 10000000 < 10000000) by (apply Z.mod_pos_bound; lia).
  cbv zeta. destruct (pad_spec _ N) as (L & F & _). cbv zeta in L, F.
  unfold name_for. set (p := pad0 7 _) in *. clearbody p. clear N.
  unfold write_at. unfold shm_prefix at 1 2 3.
  assert (Z1 : zlen p = 7) by (unfold zlen; lia).
  assert (Z2 : zlen (shm_prefix ++ d ++ [0]) = 14) by (unfold zlen; rewrite !app_length, Ld; reflexivity).
  fold shm_prefix. rewrite Z1, Z2. change (6 + 7 <=? 14) with true. cbn iota.
  assert (E : ztake 6 (shm_prefix ++ d ++ [0]) ++ p ++ zdrop (6 + 7) (shm_prefix ++ d ++ [0]) =
              shm_prefix ++ p ++ [0]).
  { unfold ztake, zdrop. change (Z.to_nat 6) with 6%nat. change (Z.to_nat (6 + 7)) with 13%nat.
    assert (E1 : firstn 6 (shm_prefix ++ d ++ [0]) = shm_prefix) by reflexivity.
    assert (E2 : skipn 13 (shm_prefix ++ d ++ [0]) = [0]).
    { change 13%nat with (6 + 7)%nat. rewrite app_assoc.
      rewrite skipn_app. rewrite skipn_all2 by (rewrite app_length, Ld; cbn; lia).
      rewrite app_length, Ld. reflexivity. }
    rewrite E1, E2. reflexivity. }
  rewrite E. cbn [obind]. unfold cstr.
  assert (R : rev (shm_prefix ++ p ++ [0]) = 0 :: rev (shm_prefix ++ p)).
  { rewrite app_assoc, rev_app_distr. reflexivity. }
  rewrite R.
  assert (NZ : forallb (fun b => negb (b =? 0)) (rev (shm_prefix ++ p)) = true).
  { apply forallb_forall. intros b Hb. apply in_rev in Hb. apply negb_true_iff, Z.eqb_neq.
    apply in_app_or in Hb as [Hb|Hb].
    - unfold shm_prefix, name_prefix in Hb. cbn in Hb. intuition lia.
    - rewrite Forall_forall in F. apply F in Hb. lia. }
  rewrite NZ. cbn [obind]. rewrite rev_involutive, <- app_assoc. reflexivity.
Qed.

Lemma name_good c : good_buf (name_for c ++ [0]).
Proof.
  assert (N : 0 <= c mod 10 ^ 9 mod 10000000 < 10000000) by (apply Z.mod_pos_bound; lia).
  destruct (pad_spec _ N) as (L & F & _). cbv zeta in L, F.
  eexists. split; [exact L|]. split.
  - eapply Forall_impl; [|exact F]. cbn. lia.
  - unfold name_for. rewrite <- app_assoc. reflexivity.
Qed.

(** ** Opening the memory file (memfd.rs, posix/mod.rs:91-102) *)

Lemma quiet_untouched w w' : quiet w w' -> untouched w w'.
Proof. intros []. split; intros; congruence. Qed.
Lemma untouched_refl w : untouched w w.
Proof. split; reflexivity. Qed.

Definition empty_obj : obj := {| o_size := 0; o_data := fun _ => 0; o_disk := fun _ => 0 |}.

(** A fresh, empty, unnamed object behind descriptor [fd]. *)
Record opened (w w' : world) (fd : Z) : Prop := {
  on_fd0 : w_fd w fd = None;
  on_pos : 0 <= fd;
  on_fd : w_fd w' = put (w_fd w) fd (Some {| fd_obj := w_next w; fd_w := true |});
  on_vm : w_vm w' = w_vm w;
  on_obj : w_obj w' = put (w_obj w) (w_next w) empty_obj;
  on_next : w_next w' = w_next w + 1
}.

Lemma new_fd_ok_iff w fd : new_fd_ok w fd = true <-> 0 <= fd /\ w_fd w fd = None.
Proof.
  unfold new_fd_ok. rewrite andb_true_iff, Z.leb_le. destruct (w_fd w fd); intuition congruence.
Qed.

Lemma memfd_spec w r w' : sys_memfd w = (r, w') ->
  match r with
  | Ret fd => opened w w' fd /\ w_fs w' = w_fs w /\ w_orc w = Grant fd :: w_orc w'
  | Err e => quiet w w' /\ consumed w w'
  | _ => False
  end.
Proof.
  unfold sys_memfd. intros H. apply ask_inv2 in H as [(e & -> & Q & C)|(a & o & Ho & H)].
  - split; [exact Q|]. destruct C as [[C1 C2]|C]; [apply consumed_eq; congruence|exact (consumed_one _ _ _ C)].
  - destruct (new_fd_ok (set_orc w o) a) eqn:E; cbn [negb] in H; injection H as <- <-.
    + apply new_fd_ok_iff in E as [E1 E2]. split; [|auto]. split; auto.
    + split; [apply quiet_orc|exact (ex_intro _ [Grant a] Ho)].
Qed.

Section Ring.
  Variable t : target.
  Hypothesis Ht : good_target t.
  Variable plat : platform.
  Variable clock : nat -> Z.
  Notation P := (t_page t).
  Let HP : 0 < P.
  Proof. exact (pow2_pos _ (proj1 (proj2 Ht))). Qed.

  Lemma open_new_spec path w r w' : sys_open t path true true true false w = (r, w') ->
    match r with
    | Ret fd => opened w w' fd /\ w_fs w path = None /\ w_fs w' = put (w_fs w) path (Some (w_next w)) /\
        w_orc w = Grant fd :: w_orc w'
    | Err e => quiet w w' /\ ((exists x, w_orc w = x :: w_orc w' /\ (x = Refuse e \/ exists a, x = Grant a /\
                    (if new_fd_ok w a then e = EEXIST /\ w_fs w path <> None else e = EMFILE))) \/
                  w_orc w = [] /\ w_orc w' = [] /\ e = ENOMEM)
    | _ => False
    end.
  Proof.
    unfold sys_open, ask. intros H. destruct (w_orc w) as [|[e|a] o] eqn:Ho.
    - injection H as <- <-. split; [apply quiet_refl|]. rewrite Ho. auto.
    - injection H as <- <-. split; [apply quiet_orc|]. left. exists (Refuse e). auto.
    - destruct (new_fd_ok (set_orc w o) a) eqn:E; cbn [negb] in H.
      + change (new_fd_ok (set_orc w o) a) with (new_fd_ok w a) in E. cbn [w_fs set_orc] in H. destruct (w_fs w path) as [x|] eqn:Ef; cbn [andb negb] in H; injection H as <- <-.
        * split; [apply quiet_orc|]. left. exists (Grant a). split; [auto|]. right. exists a. rewrite E. split; [auto|]. split; [auto|congruence].
        * apply new_fd_ok_iff in E as [E1 E2]. split; [|auto]. split; auto.
      + injection H as <- <-. split; [apply quiet_orc|]. left. exists (Grant a). split; [auto|]. right. exists a.
        change (new_fd_ok (set_orc w o) a) with (new_fd_ok w a) in E. rewrite E. auto.
  Qed.

  Lemma shm_unlink_spec path w r w' : sys_shm_unlink path w = (r, w') -> w_fs w path <> None ->
    w_vm w' = w_vm w /\ w_obj w' = w_obj w /\ w_next w' = w_next w /\ w_fd w' = w_fd w /\ consumed w w' /\
    ((r = Ret tt /\ w_fs w' = put (w_fs w) path None) \/
     (w_fs w' = w_fs w /\ refused_last w w')).
  Proof.
    unfold sys_shm_unlink. intros H Hp. apply ask_inv2 in H as [(e & -> & [] & C)|(a & o & Ho & H)].
    - do 4 (split; [assumption|]). split.
      + destruct C as [[C1 C2]|C]; [apply consumed_eq; congruence|exact (consumed_one _ _ _ C)].
      + right. split; [assumption|]. destruct C as [[C1 C2]|C]; [left; exact C1|right]. exists [], e. exact C.
    - cbn [w_fs set_orc] in H. destruct (w_fs w path); [|congruence]. injection H as <- <-.
      do 4 (split; [reflexivity|]). split; [exact (ex_intro _ [Grant a] Ho)|]. left. auto.
  Qed.

  (** How the name space ends up: as before, or with the temporary name left
      behind because its removal was refused. *)
  Definition names_kept (w w' : world) : Prop :=
    (forall x, w_fs w' x = w_fs w x) \/ (plat = Named /\ refused_some w w').

  Lemma names_quiet w w' : quiet w w' -> names_kept w w'.
  Proof. intros []. left. intros x. congruence. Qed.

  Lemma shm_loop_spec fuel : forall round pb w r w', good_buf pb -> (length (w_orc w) < fuel)%nat ->
    shm_loop t clock fuel round pb w = (r, w') ->
    consumed w w' /\
    match r with
    | Ret fd => opened w w' fd /\ ((forall x, w_fs w' x = w_fs w x) \/ refused_some w w')
    | Err e => quiet w w' /\ exists c, c <> EEXIST /\ e = last_os_error MemoryFd c
    | Panic => quiet w w' /\ exists k, (round <= k)%nat /\ clock k < 0
    | _ => False
    end.
  Proof.
    induction fuel as [|fuel IH]; intros round pb w r w' Hpb Hf H; [lia|]. cbn [shm_loop] in H.
    rewrite (shm_name_spec _ _ Hpb) in H. destruct (clock round <? 0) eqn:Ec.
    { injection H as <- <-. apply Z.ltb_lt in Ec. split; [apply consumed_refl|]. split; [apply quiet_refl|]. exists round. split; [lia|exact Ec]. }
    set (path := shm_path (name_for (clock round))) in *.
    destruct (sys_open t path true true true false w) as [r1 w1] eqn:E1.
    pose proof (open_new_spec _ _ _ _ E1) as S1. destruct r1 as [fd|e| | |]; try contradiction.
    - injection H as <- <-. destruct S1 as (O & F0 & F1 & Q1).
      destruct (sys_shm_unlink path w1) as [r2 w2] eqn:E2. cbn [snd].
      destruct (shm_unlink_spec _ _ _ _ E2) as (V & Ob & N & Fd & C & U).
      { rewrite F1, put_same. discriminate. }
      assert (C1 : consumed w w1) by exact (consumed_one _ _ _ Q1).
      split; [exact (consumed_trans _ _ _ C1 C)|]. split.
      + destruct O. split; congruence.
      + destruct U as [[_ U]|[_ U]].
        * left. intros x. rewrite U, F1. unfold put. destruct (Z.eqb_spec x path) as [->|]; congruence.
        * right. apply (refused_some_after _ _ _ C1). destruct U as [U|(q & e & U)]; [left; exact U|right]. exists q, e, []. exact U.
    - destruct S1 as [Q1 S1]. cbn in H. destruct (Z.eqb_spec e EEXIST) as [->|Ne].
      + destruct S1 as [(x & Hx & _)|(_ & _ & Hc)]; [|discriminate Hc].
        apply IH in H; [|apply name_good|rewrite Hx in Hf; cbn in Hf; lia].
        destruct H as [C H]. assert (C1 : consumed w w1) by exact (consumed_one _ _ _ Hx).
        split; [exact (consumed_trans _ _ _ C1 C)|].
        destruct r as [fd|e'| | |]; try contradiction.
        * destruct H as [[] H]. destruct Q1. split; [split; congruence|].
          destruct H as [H|H]; [left; intros y; rewrite H; congruence|right]. exact (refused_some_after _ _ _ C1 H).
        * destruct H as [Q2 H]. split; [exact (quiet_trans _ _ _ Q1 Q2)|exact H].
        * destruct H as [Q2 (k & Hk & H)]. split; [exact (quiet_trans _ _ _ Q1 Q2)|]. exists k. split; [lia|exact H].
      + injection H as <- <-. split.
        * destruct S1 as [(x & Hx & _)|(H1 & H2 & _)]; [exact (consumed_one _ _ _ Hx)|apply consumed_eq; congruence].
        * split; [exact Q1|]. exists e. auto.
  Qed.

  Lemma memfd_open_spec w r w' : memfd_open t plat clock w = (r, w') ->
    consumed w w' /\
    match r with
    | Ret fd => opened w w' fd /\ names_kept w w'
    | Err e => quiet w w' /\ exists c, e = last_os_error MemoryFd c
    | Panic => quiet w w' /\ plat = Named /\ exists k, clock k < 0
    | _ => False
    end.
  Proof.
    unfold memfd_open, names_kept. destruct plat eqn:Ep; intros H.
    - unfold os_call in H. destruct (sys_memfd w) as [r1 w1] eqn:E. apply memfd_spec in E.
      destruct r1 as [fd|e| | |]; try contradiction; injection H as <- <-.
      + destruct E as (O & F & Q). split; [exact (consumed_one _ _ _ Q)|]. split; [exact O|]. left. intros x. congruence.
      + destruct E as [Q C]. split; [exact C|]. split; [exact Q|]. eauto.
    - apply shm_loop_spec in H; [|exact template_good|lia]. destruct H as [C H]. split; [exact C|].
      destruct r as [fd|e| | |]; try contradiction.
      + destruct H as [O [F|F]]; (split; [exact O|]); [left; exact F|right]. auto.
      + destruct H as (Q & c & _ & ->). eauto.
      + destruct H as (Q & k & _ & Hk). eauto.
  Qed.

  (** A fresh object of [len] zero bytes behind descriptor [fd]. *)
  Record memfile (w w' : world) (fd len : Z) : Prop := {
    mf_fd0 : w_fd w fd = None;
    mf_pos : 0 <= fd;
    mf_fd : forall x, w_fd w' x = put (w_fd w) fd (Some {| fd_obj := w_next w; fd_w := true |}) x;
    mf_vm : forall p, w_vm w' p = w_vm w p;
    mf_obj : forall o, o <> w_next w -> w_obj w' o = w_obj w o;
    mf_size : o_size (w_obj w' (w_next w)) = len;
    mf_zero : forall i, o_data (w_obj w' (w_next w)) i = 0;
    mf_next : w_next w' = w_next w + 1;
    mf_names : names_kept w w'
  }.

  Lemma bits_half : 2 ^ t_bits t = 2 * 2 ^ (t_bits t - 1) /\ 0 < 2 ^ (t_bits t - 1).
  Proof.
    destruct Ht as [[Hb|Hb] _]; rewrite Hb; split; reflexivity.
  Qed.

  Lemma tmp_open_spec len w r w' : wf w -> is_usize t len -> tmp_open t plat clock len w = (r, w') ->
    consumed w w' /\
    match r with
    | Ret fd => memfile w w' fd len /\ len < 2 ^ (t_bits t - 1)
    | Err e => untouched w w' /\ names_kept w w' /\ exists c, e = last_os_error MemoryFd c
    | Panic => quiet w w' /\ plat = Named /\ exists k, clock k < 0
    | _ => False
    end.
  Proof.
    intros Hw Hl H. unfold tmp_open in H. apply sbind_ret in H as [(fd & w1 & E1 & H)|H].
    - apply memfd_open_spec in E1 as (C1 & O & N).
      destruct (sys_ftruncate t fd (as_signed t len) w1) as [r2 w2] eqn:E2.
      assert (C2 : consumed w1 w2).
      { unfold sys_ftruncate in E2. refine (ask_consumed _ _ _ _ _ E2). intros a x rr x' Hx.
        destruct (as_signed t len <? 0); [injection Hx as <- <-; reflexivity|].
        destruct (w_fd x fd) as [f|]; [|injection Hx as <- <-; reflexivity].
        destruct (fd_w f); injection Hx as <- <-; reflexivity. }
      assert (N2 : w_fs w2 = w_fs w1 -> names_kept w w2).
      { intros F. destruct N as [N|[N1 N2]]; [left; intros x; rewrite F; apply N|right].
        split; [exact N1|]. exact (refused_some_before _ _ _ N2 C2). }
      apply ftruncate_spec in E2. destruct O as [O1 O2 O3 O4 O5 O6].
      destruct r2 as [u|e| | |]; try contradiction.
      + injection H as <- <-. destruct E2 as (f & o & F & Fw & S & ->).
        rewrite O3, put_same in F. injection F as <-. cbn [fd_obj fd_w] in *.
        pose proof (resize_obj_spec t (w_next w) (as_signed t len) (set_orc w1 o)) as (R1 & R2 & R3 & R4 & R5 & R6 & R7 & R8).
        cbn [w_obj set_orc w_vm w_fd w_fs w_next] in *.
        assert (Hs : as_signed t len = len /\ len < 2 ^ (t_bits t - 1)).
        { unfold as_signed in *. pose proof bits_half. unfold is_usize in Hl. destruct (Z.ltb_spec len (2 ^ (t_bits t - 1))); lia. }
        destruct Hs as [Hs Hlt]. rewrite Hs in *. split; [exact (consumed_trans _ _ _ C1 C2)|]. split; [|exact Hlt]. split.
        * exact O1.
        * exact O2.
        * intros x. rewrite R3, O3. reflexivity.
        * intros p. specialize (R1 p). rewrite O4 in R1. destruct (w_vm w p) as [e|] eqn:Ev.
          -- destruct (w_vm (resize_obj t (w_next w) len (set_orc w1 o)) p) as [e'|]; [|contradiction].
             destruct R1 as [S1 S2]. assert (p_obj e <> w_next w) by (apply (wf_vm w Hw) in Ev; lia).
             destruct S2 as [S2|(_ & S2 & _)]; [|contradiction]. f_equal.
             destruct e, e'. destruct S1 as (A1 & A2 & A3 & A4 & A5 & A6 & A7 & A8). cbn in *. congruence.
          -- destruct (w_vm (resize_obj t (w_next w) len (set_orc w1 o)) p); [contradiction|reflexivity].
        * intros x Hx. rewrite R5, O5, put_other by exact Hx. reflexivity.
        * exact R6.
        * intros i. rewrite R7, O5, put_same. cbn. destruct (i <? Z.min 0 len); reflexivity.
        * rewrite R2. exact O6.
        * apply N2. exact R4.
      + injection H as <- <-. split; [exact (consumed_trans _ _ _ C1 C2)|]. destruct E2 as [Q1 Q2 Q3 Q4 Q5]. split; [|split].
        * split; cbn.
          -- intros p. congruence.
          -- intros x. unfold put at 1. destruct (Z.eqb_spec x fd) as [->|]; [congruence|].
             rewrite Q4, O3, put_other by assumption. reflexivity.
          -- intros o Ho. rewrite Q2, O5, put_other by lia. reflexivity.
        * apply N2 in Q5. destruct Q5 as [Q5|Q5]; [left; exact Q5|right; exact Q5].
        * eauto.
    - destruct H as [(e & E & ->)|[(E & ->)|[(E & ->)|(E & ->)]]]; apply memfd_open_spec in E as [C E]; (split; [exact C|]); try contradiction.
      + destruct E as [Q E]. split; [exact (quiet_untouched _ _ Q)|]. split; [exact (names_quiet _ _ Q)|exact E].
      + exact E.
  Qed.

  (** ** mmap with MAP_FIXED *)
  Lemma mmap_consumed fixed addr len pr sh an fd off w r w' :
    sys_mmap t fixed addr len pr sh an fd off w = (r, w') -> consumed w w'.
  Proof.
    unfold sys_mmap. apply ask_consumed. clear. intros a w r w' H.
    destruct (len <=? 0); [injection H as <- <-; reflexivity|].
    destruct ((off <? 0) || negb (off mod P =? 0)); [injection H as <- <-; reflexivity|]. cbv zeta in H.
    destruct (negb (range_ok t (if fixed then addr else a) len)); [injection H as <- <-; reflexivity|].
    destruct (negb fixed && _); [injection H as <- <-; reflexivity|].
    unfold backing in H. destruct an.
    - injection H as <- <-. reflexivity.
    - destruct (w_fd w fd) as [f|]; [|injection H as <- <-; reflexivity].
      destruct (sh && pr_w pr && negb (fd_w f)); injection H as <- <-; reflexivity.
  Qed.

  Lemma mmap_fixed_spec addr len pr shared fd f w r w' : w_fd w fd = Some f -> fd_w f = true ->
    sys_mmap t true addr len pr shared false fd 0 w = (r, w') ->
    match r with
    | Ret a => a = addr /\ 0 < len /\ range_ok t addr len = true /\
        (forall p, w_vm w' p = if in_pages (addr / P) (npages t len) p
                               then Some (entry (fd_obj f) (p - addr / P) pr shared true) else w_vm w p) /\
        w_obj w' = w_obj w /\ w_next w' = w_next w /\ w_fd w' = w_fd w /\ w_fs w' = w_fs w
    | Err _ => quiet w w'
    | _ => False
    end.
  Proof.
    intros Hf Hw H. unfold sys_mmap in H. apply ask_inv in H as [(e & -> & Q)|(a & o & Ho & H)]; [exact Q|].
    assert (Q0 : quiet w (set_orc w o)) by apply quiet_orc.
    destruct (len <=? 0) eqn:El; [injection H as <- <-; exact Q0|]. apply Z.leb_gt in El.
    rewrite Zmod_0_l in H. change ((0 <? 0) || negb (0 =? 0)) with false in H. cbv zeta in H. cbn iota in H.
    destruct (range_ok t addr len) eqn:Er; cbn [negb] in H; [|injection H as <- <-; exact Q0].
    cbn [negb andb] in H. unfold backing in H. cbn [w_fd set_orc] in H. rewrite Hf, Hw in H.
    rewrite andb_false_r in H. injection H as <- <-. split; [reflexivity|]. split; [exact El|]. split; [reflexivity|].
    split; [|repeat split]. intros p. cbn [w_vm set_vm set_orc]. rewrite orb_true_r. reflexivity.
  Qed.

  (** ** Reserving and mirroring (posix/mod.rs:32-63) *)

  (** Pages [first .. first + n) and [first + n .. first + 2 n) show the same
      [n] pages of object [o]; all other pages are as in [vm]. *)
  Definition two_views (first n o : Z) (vm : Z -> option pte) (p : Z) : option pte :=
    if in_pages first n p then Some (entry o (p - first) PRW true true)
    else if in_pages (first + n) n p then Some (entry o (p - (first + n)) PRW true true)
    else vm p.

  Lemma npages_twice len : 0 < len -> npages t len <= npages t (2 * len).
  Proof. intros H. pose proof (npages_bounds t HP len). pose proof (npages_bounds t HP (2 * len)). nia. Qed.

  Lemma wrap_fd_spec len fd o w r w' : 0 <= len < 2 ^ (t_bits t - 1) ->
    w_fd w fd = Some {| fd_obj := o; fd_w := true |} -> wrap_fd t len fd w = (r, w') ->
    consumed w w' /\ w_fd w' = w_fd w /\ w_fs w' = w_fs w /\ w_next w <= w_next w' /\
    (forall x, x < w_next w -> w_obj w' x = w_obj w x) /\
    match r with
    | Ret pg => exists n, 0 < n /\ len = P * n /\ pg mod P = 0 /\ P <= pg /\ pg + 2 * len <= 2 ^ t_bits t - P /\
        (forall p, pg / P <= p < pg / P + 2 * n -> w_vm w p = None) /\
        (forall p, w_vm w' p = two_views (pg / P) n o (w_vm w) p)
    | Err e => (exists op c, ring_stage op /\ e = last_os_error op c) /\
        ((forall p, w_vm w' p = w_vm w p) \/
         ((e_op e = RingPrimary \/ e_op e = RingSecondary) /\ refused_last w w' /\ left_mapped t w w' len))
    | _ => False
    end.
  Proof.
    intros Hl Hfd H. unfold wrap_fd in H. pose proof bits_half as [HB HB0].
    assert (EM : umul (E:=error) t len 2 = Ret (2 * len)).
    { unfold umul. rewrite wrap_in by lia. f_equal. lia. }
    unfold sbind at 1 in H. cbn [sout] in H. rewrite EM in H. cbn beta iota in H.
    apply sbind_ret in H as [(pg & w1 & E1 & H)|H].
    2:{ unfold ring_mmap in H. destruct H as [(e & E & ->)|[(E & ->)|[(E & ->)|(E & ->)]]];
          apply os_call_inv in E; try (apply mmap_spec in E; contradiction).
        destruct E as (c & E & ->). pose proof (mmap_consumed _ _ _ _ _ _ _ _ _ _ _ E) as C. apply mmap_spec in E. destruct E as [E1 E2 E3 E4 E5].
        split; [exact C|]. split; [exact E4|]. split; [exact E5|]. split; [lia|]. split; [intros x _; congruence|].
        split; [exists RingAllocate, c; unfold ring_stage; auto|]. left. intros p. congruence. }
    apply os_call_inv in E1. pose proof (mmap_consumed _ _ _ _ _ _ _ _ _ _ _ E1) as C1.
    apply mmap_spec in E1. destruct E1 as (_ & _ & M & N1 & O1). destruct M as [M1 M2 M3 M4 M5 M6].
    rewrite Zdiv_0_l in M4. set (K := npages t (2 * len)) in *.
    apply range_ok_iff in M2 as (R1 & R2 & R3). fold K in R3.
    assert (L0 : 0 < len) by lia.
    pose proof (npages_bounds t HP (2 * len)) as KB. fold K in KB.
    pose proof (npages_bounds t HP len) as LB.
    assert (KT : npages t len <= K) by (apply npages_twice; exact L0).
    pose proof (Z.div_mod pg P ltac:(lia)) as Dpg. rewrite R2 in Dpg.
    assert (PA : ptr_add t pg len = pg + len).
    { unfold ptr_add, as_usize. rewrite Z.mod_small; lia. }
    assert (Hfd1 : w_fd w1 fd = Some {| fd_obj := o; fd_w := true |}) by congruence.
    assert (OB1 : forall x, x < w_next w -> w_obj w1 x = w_obj w x).
    { intros x Hx. rewrite O1, put_other by lia. reflexivity. }
    (* the two fixed mappings and, after a failure, the cleanup *)
    unfold wrap_ptr in H. rewrite PA in H.
    destruct (ring_mmap t RingPrimary true pg len true false fd w1) as [r2 w2] eqn:E2.
    assert (Clean : forall err w3, (forall p, ~ pg / P <= p < pg / P + K -> w_vm w3 p = w_vm w p) ->
      w_fd w3 = w_fd w -> w_fs w3 = w_fs w -> w_next w <= w_next w3 -> (forall x, x < w_next w -> w_obj w3 x = w_obj w x) ->
      consumed w w3 -> (exists op c, ring_stage op /\ err = last_os_error op c) ->
      (do* _ <- ignore (unmap_ring t pg len); sout (Err err)) w3 = (r, w') ->
      consumed w w' /\ w_fd w' = w_fd w /\ w_fs w' = w_fs w /\ w_next w <= w_next w' /\
      (forall x, x < w_next w -> w_obj w' x = w_obj w x) /\
      r = Err err /\ ((forall p, w_vm w' p = w_vm w p) \/ (refused_last w w' /\ left_mapped t w w' len))).
    { intros err w3 V3 F3 S3 N3 B3 C3 _ Hc. unfold sbind, ignore, unmap_ring, sbind in Hc.
      assert (EM2 : umul (E:=error) t 2 len = Ret (2 * len)) by (unfold umul; apply wrap_in; lia).
      cbn [sout] in Hc. rewrite EM2 in Hc. cbn beta iota in Hc. unfold os_unmap, os_call in Hc.
      destruct (sys_munmap t pg (2 * len) w3) as [r4 w4] eqn:E4.
      assert (C4 : consumed w3 w4).
      { unfold sys_munmap in E4. refine (ask_consumed _ _ _ _ _ E4). intros a x rr x' Hx.
        destruct ((2 * len <=? 0) || negb (pg mod P =? 0)); injection Hx as <- <-; reflexivity. }
      unfold sys_munmap in E4. apply ask_inv2 in E4 as [(e & -> & [Q1 Q2 Q3 Q4 Q5] & CC)|(a & oo & Ho & E4)].
      - cbn in Hc. injection Hc as <- <-. split; [exact (consumed_trans _ _ _ C3 C4)|].
        split; [congruence|]. split; [congruence|]. split; [lia|]. split; [intros x Hx; rewrite Q2; auto|]. split; [reflexivity|].
        right. split.
        + apply (refused_last_after _ _ _ C3). destruct CC as [[CC _]|CC]; [left; exact CC|right]. exists [], e. exact CC.
        + exists (pg / P). fold K. split; [exact M3|]. intros p Hp. rewrite Q1. apply V3, Hp.
      - rewrite R2 in E4. rewrite (proj2 (Z.leb_gt (2 * len) 0)) in E4 by lia. cbn [Z.eqb negb orb] in E4.
        assert (G : r4 = Ret tt /\ w_vm w4 = (fun p => if in_pages (pg / P) K p then None else w_vm w3 p) /\
          w_obj w4 = w_obj w3 /\ w_next w4 = w_next w3 /\ w_fd w4 = w_fd w3 /\ w_fs w4 = w_fs w3)
          by (injection E4 as <- <-; repeat split).
        destruct G as (-> & G1 & G2 & G3 & G4 & G5).
        injection Hc as <- <-. split; [exact (consumed_trans _ _ _ C3 C4)|].
        split; [congruence|]. split; [congruence|]. split; [lia|]. split; [intros x Hx; rewrite G2; auto|].
        split; [reflexivity|]. left. intros p. rewrite G1.
        destruct (in_pages_cases (pg / P) K p) as [[-> Ip]|[-> Ip]]; [symmetry; apply M3, Ip|apply V3, Ip]. }
    assert (V1 : forall p, ~ pg / P <= p < pg / P + K -> w_vm w1 p = w_vm w p).
    { intros p Hp. rewrite M4, in_pages_no by exact Hp. reflexivity. }
    unfold sbind at 1 in H. rewrite E2 in H.
    unfold ring_mmap in E2. apply os_call_inv in E2.
    destruct r2 as [pg2|err| | |]; try (apply (mmap_fixed_spec _ _ _ _ _ _ _ _ _ Hfd1 eq_refl) in E2; contradiction).
    2:{ destruct E2 as (c & E2 & ->). pose proof (mmap_consumed _ _ _ _ _ _ _ _ _ _ _ E2) as C2.
        apply (mmap_fixed_spec _ _ _ _ _ _ _ _ _ Hfd1 eq_refl) in E2. destruct E2 as [Q1 Q2 Q3 Q4 Q5].
        assert (CE : exists op c0, ring_stage op /\ last_os_error RingPrimary c = last_os_error op c0).
        { exists RingPrimary, c. unfold ring_stage. auto. }
        apply Clean in H; try congruence; try lia.
        - destruct H as (A1 & A2 & A3 & A4 & A5 & -> & A6). do 6 (split; [assumption|]). destruct A6 as [A6|A6]; [left; exact A6|right]. split; [cbn; auto|exact A6].
        - intros p Hp. rewrite Q1. apply V1, Hp.
        - intros x Hx. rewrite Q2. apply OB1, Hx.
        - exact (consumed_trans _ _ _ C1 C2). }
    pose proof (mmap_consumed _ _ _ _ _ _ _ _ _ _ _ E2) as C2.
    apply (mmap_fixed_spec _ _ _ _ _ _ _ _ _ Hfd1 eq_refl) in E2. cbn [fd_obj] in E2. destruct E2 as (-> & _ & _ & V2 & B2 & N2 & F2 & S2).
    assert (Hfd2 : w_fd w2 fd = Some {| fd_obj := o; fd_w := true |}) by congruence.
    assert (V2' : forall p, ~ pg / P <= p < pg / P + K -> w_vm w2 p = w_vm w p).
    { intros p Hp. rewrite V2, in_pages_no by lia. apply V1, Hp. }
    destruct (ring_mmap t RingSecondary true (pg + len) len true false fd w2) as [r3 w3] eqn:E3.
    unfold sbind at 1 in H. rewrite E3 in H.
    unfold ring_mmap in E3. apply os_call_inv in E3.
    destruct r3 as [pg3|err| | |]; try (apply (mmap_fixed_spec _ _ _ _ _ _ _ _ _ Hfd2 eq_refl) in E3; contradiction).
    2:{ destruct E3 as (c & E3 & ->). pose proof (mmap_consumed _ _ _ _ _ _ _ _ _ _ _ E3) as C3.
        apply (mmap_fixed_spec _ _ _ _ _ _ _ _ _ Hfd2 eq_refl) in E3. destruct E3 as [Q1 Q2 Q3 Q4 Q5].
        assert (CE : exists op c0, ring_stage op /\ last_os_error RingSecondary c = last_os_error op c0).
        { exists RingSecondary, c. unfold ring_stage. auto. }
        apply Clean in H; try congruence; try lia.
        - destruct H as (A1 & A2 & A3 & A4 & A5 & -> & A6). do 6 (split; [assumption|]). destruct A6 as [A6|A6]; [left; exact A6|right]. split; [cbn; auto|exact A6].
        - intros p Hp. rewrite Q1. apply V2', Hp.
        - intros x Hx. rewrite Q2, B2. apply OB1, Hx.
        - exact (consumed_trans _ _ _ C1 (consumed_trans _ _ _ C2 C3)). }
    pose proof (mmap_consumed _ _ _ _ _ _ _ _ _ _ _ E3) as C3.
    apply (mmap_fixed_spec _ _ _ _ _ _ _ _ _ Hfd2 eq_refl) in E3. cbn [fd_obj] in E3. destruct E3 as (-> & _ & R & V3 & B3 & N3 & F3 & S3).
    cbn in H. injection H as <- <-.
    apply range_ok_iff in R as (_ & R & _).
    assert (Hlm : len mod P = 0).
    { replace len with ((pg + len) - pg) by lia. rewrite Zminus_mod, R, R2. apply Zmod_0_l. }
    pose proof (Z.div_mod len P ltac:(lia)) as Dl. rewrite Hlm in Dl.
    set (n := len / P) in *. assert (Hn : len = P * n) by lia.
    assert (KE : K = 2 * n). { unfold K. replace (2 * len) with (P * (2 * n)) by lia. apply npages_mul, HP. }
    assert (LE : npages t len = n) by (rewrite Hn; apply npages_mul, HP).
    assert (DE : (pg + len) / P = pg / P + n).
    { rewrite Hn, (Z.mul_comm P n), Z.div_add by lia. reflexivity. }
    split; [exact (consumed_trans _ _ _ C1 (consumed_trans _ _ _ C2 C3))|].
    split; [congruence|]. split; [congruence|]. split; [lia|]. split; [intros x Hx; rewrite B3, B2; auto|].
    exists n. split; [nia|]. split; [exact Hn|]. split; [exact R2|]. split; [exact R1|]. split; [nia|].
    rewrite KE in M3. split; [exact M3|].
    intros p. rewrite V3, V2, M4. rewrite DE, LE, KE. unfold two_views.
    destruct (in_pages_cases (pg / P) n p) as [[-> I1]|[-> I1]].
    - rewrite in_pages_no by lia. reflexivity.
    - destruct (in_pages_cases (pg / P + n) n p) as [[-> I2]|[-> I2]]; [reflexivity|].
      rewrite in_pages_no by lia. reflexivity.
  Qed.

  (** ** The whole allocation (posix/mod.rs:22-30) *)
  Record allocated (w w' : world) (pg len : Z) : Prop := {
    al_n : exists n, 0 < n /\ len = P * n /\
      (forall p, pg / P <= p < pg / P + 2 * n -> w_vm w p = None) /\
      (forall p, w_vm w' p = two_views (pg / P) n (w_next w) (w_vm w) p);
    al_align : pg mod P = 0;
    al_low : P <= pg;
    al_high : pg + 2 * len <= 2 ^ t_bits t - P;
    al_size : o_size (w_obj w' (w_next w)) = len;
    al_zero : forall i, o_data (w_obj w' (w_next w)) i = 0;
    al_fd : forall fd, w_fd w' fd = w_fd w fd;
    al_obj : forall o, o < w_next w -> w_obj w' o = w_obj w o;
    al_next : w_next w < w_next w';
    al_names : names_kept w w'
  }.

  Lemma map_ring_spec len w r w' : wf w -> is_usize t len -> map_ring t plat clock len w = (r, w') ->
    consumed w w' /\
    match r with
    | Ret pg => allocated w w' pg len
    | Err e => stage_error e /\ names_kept w w' /\
        (forall fd, w_fd w' fd = w_fd w fd) /\ (forall o, o < w_next w -> w_obj w' o = w_obj w o) /\
        ((forall p, w_vm w' p = w_vm w p) \/
         ((e_op e = RingPrimary \/ e_op e = RingSecondary) /\ refused_last w w' /\ left_mapped t w w' len))
    | Panic => quiet w w' /\ plat = Named /\ exists k, clock k < 0
    | _ => False
    end.
  Proof.
    intros Hw Hl H. unfold map_ring in H. apply sbind_ret in H as [(fd & w1 & E1 & H)|H].
    - apply tmp_open_spec in E1 as (C1 & M & Hlt); [|exact Hw|exact Hl]. destruct M as [M1 M2 M3 M4 M5 M6 M7 M8 M9].
      destruct (wrap_fd t len fd w1) as [r2 w2] eqn:E2.
      assert (Hfd : w_fd w1 fd = Some {| fd_obj := w_next w; fd_w := true |}) by (rewrite M3, put_same; reflexivity).
      unfold is_usize in Hl.
      apply (wrap_fd_spec len _ _ _ _ _ (conj (proj1 Hl) Hlt) Hfd) in E2. destruct E2 as (C2 & F2 & S2 & N2 & B2 & E2).
      assert (FD : forall x, put (w_fd w2) fd None x = w_fd w x).
      { intros x. rewrite F2. unfold put. destruct (Z.eqb_spec x fd) as [->|Hx]; [congruence|].
        rewrite M3, put_other by exact Hx. reflexivity. }
      assert (BO : forall x, x < w_next w -> w_obj w2 x = w_obj w x).
      { intros x Hx. rewrite B2 by lia. apply M5. lia. }
      assert (NK : forall w3, w_fs w3 = w_fs w2 -> w_orc w3 = w_orc w2 -> names_kept w w3).
      { intros w3 E3 E4. destruct M9 as [M9|[M9 M10]].
        - left. intros x. rewrite E3, S2. apply M9.
        - right. split; [exact M9|]. apply (refused_some_before _ _ _ M10). destruct C2 as (q & C2). exists q. rewrite E4. exact C2. }
      assert (CC : consumed w w2) by exact (consumed_trans _ _ _ C1 C2).
      destruct r2 as [pg|e| | |]; try contradiction; injection H as <- <-.
      + destruct E2 as (n & Hn & Hln & Ha & Hlo & Hhi & Fr & V). split; [exact CC|]. split; cbn.
        * exists n. split; [exact Hn|]. split; [exact Hln|]. split.
          -- intros p Hp. rewrite <- M4. apply Fr, Hp.
          -- intros p. rewrite V. unfold two_views. rewrite M4. reflexivity.
        * exact Ha.
        * exact Hlo.
        * exact Hhi.
        * rewrite B2 by lia. exact M6.
        * intros i. rewrite B2 by lia. apply M7.
        * exact FD.
        * exact BO.
        * lia.
        * apply NK; reflexivity.
      + destruct E2 as [(op & c & Hop & ->) E2]. split; [exact CC|]. split; [exists op, c; auto|].
        split; [apply NK; reflexivity|]. split; [exact FD|]. split; [exact BO|].
        destruct E2 as [V|(Op & R & first & L1 & L2)].
        * left. intros p. cbn. rewrite V. apply M4.
        * right. split; [exact Op|]. split; [exact (refused_last_after _ _ _ C1 R)|]. exists first. split.
          -- intros p Hp. rewrite <- M4. apply L1, Hp.
          -- intros p Hp. cbn. rewrite L2 by exact Hp. apply M4.
    - destruct H as [(e & E & ->)|[(E & ->)|[(E & ->)|(E & ->)]]]; apply tmp_open_spec in E; try assumption;
        destruct E as [C E]; (split; [exact C|]); try contradiction.
      destruct E as ([U1 U2 U3] & N & c & ->). split; [exists MemoryFd, c; auto|]. auto.
  Qed.

  (** ** The mirror *)
  Record ringed (w : world) (pg n o : Z) (m : Z -> byte) : Prop := {
    rg_n : 0 < n;
    rg_align : pg mod P = 0;
    rg_page : forall k, 0 <= k < 2 * n -> exists e, w_vm w (pg / P + k) = Some e /\
      p_obj e = o /\ p_idx e = k mod n /\ p_r e = true /\ p_w e = true /\ p_shared e = true /\ p_copy e = None;
    rg_only : forall p e, w_vm w p = Some e -> p_obj e = o -> pg / P <= p < pg / P + 2 * n;
    rg_size : P * n <= o_size (w_obj w o);
    rg_data : forall i, 0 <= i < P * n -> o_data (w_obj w o) i = m i
  }.

  Lemma split_mod v n : 0 < n -> 0 <= v -> v mod (P * n) = P * ((v / P) mod n) + v mod P.
  Proof. intros Hn Hv. rewrite Z.rem_mul_r by lia. lia. Qed.

  Lemma ring_load w pg n o m v : ringed w pg n o m -> 0 <= v < 2 * (P * n) ->
    load (E:=error) t w (pg + v) = Ret (m (v mod (P * n))).
  Proof.
    intros [Rn Ra Rp Ro Rs Rd] Hv. unfold load.
    destruct (split_addr t HP pg v ltac:(lia) Ra) as [-> ->].
    assert (Hk : 0 <= v / P < 2 * n).
    { split; [apply Z.div_pos; lia|]. apply Z.div_lt_upper_bound; lia. }
    destruct (Rp _ Hk) as (e & -> & Eo & Ei & Er & Ew & Es & Ec).
    rewrite Er. cbn [negb]. rewrite Eo, Ei.
    pose proof (Z.mod_pos_bound (v / P) n Rn). pose proof (Z.mod_pos_bound v P HP).
    assert (P * ((v / P) mod n) < P * n) by nia.
    rewrite (proj2 (Z.leb_gt (o_size (w_obj w o)) _)) by lia. unfold page_byte. rewrite Ec, Eo, Ei.
    rewrite <- split_mod by lia. rewrite Rd; [reflexivity|]. apply Z.mod_pos_bound. lia.
  Qed.

  Lemma ring_store w pg n o m v b : ringed w pg n o m -> 0 <= v < 2 * (P * n) ->
    exists w', store (E:=error) t (pg + v) b w = (Ret tt, w') /\
      ringed w' pg n o (upd m (v mod (P * n)) b) /\
      w_vm w' = w_vm w /\ w_next w' = w_next w /\ w_fd w' = w_fd w /\ w_fs w' = w_fs w /\ w_orc w' = w_orc w /\
      (forall o', o' <> o -> w_obj w' o' = w_obj w o') /\
      o_disk (w_obj w' o) = o_disk (w_obj w o).
  Proof.
    intros R Hv. pose proof R as [Rn Ra Rp Ro Rs Rd]. unfold store.
    destruct (split_addr t HP pg v ltac:(lia) Ra) as [-> ->].
    assert (Hk : 0 <= v / P < 2 * n).
    { split; [apply Z.div_pos; lia|]. apply Z.div_lt_upper_bound; lia. }
    destruct (Rp _ Hk) as (e & -> & Eo & Ei & Er & Ew & Es & Ec).
    rewrite Ew. cbn [negb]. cbv zeta. rewrite Eo, Ei, Es.
    pose proof (Z.mod_pos_bound (v / P) n Rn). pose proof (Z.mod_pos_bound v P HP).
    assert (P * ((v / P) mod n) < P * n) by nia.
    rewrite (proj2 (Z.leb_gt (o_size (w_obj w o)) _)) by lia.
    rewrite <- split_mod by lia. pose proof (Z.mod_pos_bound v (P * n) ltac:(lia)).
    rewrite (proj2 (Z.ltb_lt (v mod (P * n)) _)) by lia.
    eexists. split; [reflexivity|]. split.
    - split; cbn [w_vm w_obj set_obj]; try assumption.
      + rewrite put_same. cbn. exact Rs.
      + intros i Hi. rewrite put_same. cbn [o_data]. unfold upd. destruct (i =? v mod (P * n)); [reflexivity|apply Rd, Hi].
    - cbn. do 5 (split; [reflexivity|]). split; [intros o' Ho; apply put_other, Ho|]. rewrite put_same. reflexivity.
  Qed.

  Lemma load_same w w' a : (w_vm w' (a / P) = w_vm w (a / P)) ->
    (forall e, w_vm w (a / P) = Some e -> w_obj w' (p_obj e) = w_obj w (p_obj e)) ->
    load (E:=error) t w' a = load t w a.
  Proof.
    intros E H. unfold load. rewrite E. destruct (w_vm w (a / P)) as [e|]; [|reflexivity].
    unfold page_byte. rewrite (H e eq_refl). reflexivity.
  Qed.

  Lemma page_in pg n a : 0 < n -> pg mod P = 0 ->
    (pg / P <= a / P < pg / P + 2 * n <-> pg <= a < pg + 2 * (P * n)).
  Proof.
    intros Hn Ha. pose proof (Z.div_mod pg P ltac:(lia)) as D. rewrite Ha in D.
    pose proof (Z.div_mod a P ltac:(lia)). pose proof (Z.mod_pos_bound a P HP). nia.
  Qed.

  Lemma ringed_mirrored w pg n o m : ringed w pg n o m -> mirrored t w pg (P * n) m.
  Proof.
    intros R l. revert w m R. induction l as [|[v b] l IH]; intros w m R F; cbn [put_all].
    - cbn. split; [reflexivity|]. split; [|reflexivity]. intros v Hv. exact (ring_load _ _ _ _ _ _ R Hv).
    - apply Forall_cons_iff in F as [Hv F]. cbn [fst] in Hv.
      destruct (ring_store w pg n o m v b R Hv) as (w1 & S & R1 & V1 & _ & _ & _ & _ & O1 & _).
      unfold sbind. rewrite S. specialize (IH w1 _ R1 F).
      destruct (put_all t pg l w1) as [r w']. destruct IH as (-> & L & N).
      split; [reflexivity|]. split; [exact L|].
      intros a Ha. rewrite N by exact Ha. apply load_same; [rewrite V1; reflexivity|].
      intros e He. apply O1. intros Eo. apply Ha. apply page_in; [apply (rg_n _ _ _ _ _ R)|apply (rg_align _ _ _ _ _ R)|].
      exact (rg_only _ _ _ _ _ R _ _ He Eo).
  Qed.

  Lemma allocated_ringed w w' pg len : wf w -> allocated w w' pg len ->
    exists n, len = P * n /\ ringed w' pg n (w_next w) (fun _ => 0).
  Proof.
    intros Hw [(n & Hn & Hl & Fr & V) A1 A2 A3 A4 A5 A6 A7 A8]. exists n. split; [exact Hl|]. split.
    - exact Hn.
    - exact A1.
    - intros k Hk. rewrite V. unfold two_views. destruct (Z.lt_ge_cases k n).
      + rewrite in_pages_yes by lia. eexists. split; [reflexivity|]. cbn. rewrite Z.mod_small by lia. split; [reflexivity|]. split; [lia|]. auto.
      + rewrite in_pages_no by lia. rewrite in_pages_yes by lia. eexists. split; [reflexivity|]. cbn.
        split; [reflexivity|]. split; [|auto]. rewrite <- (Z.mod_add k (-1) n), Z.mod_small by lia. lia.
    - intros p e. rewrite V. unfold two_views.
      destruct (in_pages_cases (pg / P) n p) as [[-> Ip]|[-> Ip]]; [intros; lia|].
      destruct (in_pages_cases (pg / P + n) n p) as [[-> Iq]|[-> Iq]]; [intros; lia|].
      intros He Ho. apply (wf_vm w Hw) in He. lia.
    - lia.
    - intros i _. apply A5.
  Qed.

  (** Everything that was readable before reads the same after the
      allocation. *)
  Lemma allocated_others w w' pg len a : wf w -> allocated w w' pg len -> ~ (pg <= a < pg + 2 * len) ->
    load (E:=error) t w' a = load t w a.
  Proof.
    intros Hw [(n & Hn & Hl & Fr & V) A1 A2 A3 A4 A5 A6 A7 A8] Ha. subst len.
    pose proof (page_in pg n a Hn A1) as PI. apply load_same.
    - rewrite V. unfold two_views. rewrite !in_pages_no by lia. reflexivity.
    - intros e He. apply A7. exact (wf_vm w Hw _ _ He).
  Qed.
End Ring.
