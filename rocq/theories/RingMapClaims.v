(** Lemmas behind the property theorems of the POSIX ring allocation. *)
From Coq Require Import Lia.
From Verif Require Import Base Spec ErrorModel SizeModel SizeProofs SizeSpecProofs SeqProofs RingModel OsModel MapModel MapSpec OsProofs MapProofs
  RingMapModel RingMapSpec MirrorProofs.

(** ** Temporary names (memfd.rs:34-61) *)
Lemma name_for_is c : is_name c (name_for c).
Proof.
  assert (N : 0 <= c mod 10 ^ 9 mod 10000000 < 10000000) by (apply Z.mod_pos_bound; lia).
  destruct (pad_spec _ N) as (L & F & V). cbv zeta in L, F, V. eexists. split; [reflexivity|].
  split; [exact L|]. split; [exact F|]. rewrite V.
  rewrite <- (Znumtheory.Zmod_div_mod 10000000 (10 ^ 9) c); [reflexivity|lia|lia|]. exists 100. reflexivity.
Qed.

(** Names are determined by the clock reading. *)
Lemma number_inj l1 : forall l2 a1 a2, length l1 = length l2 ->
  Forall (fun b => 48 <= b <= 57) l1 -> Forall (fun b => 48 <= b <= 57) l2 ->
  number a1 l1 = number a2 l2 -> a1 = a2 /\ l1 = l2.
Proof.
  induction l1 as [|b1 l1 IH]; intros [|b2 l2] a1 a2 L F1 F2 H; try discriminate L.
  - cbn in H. auto.
  - inversion F1; inversion F2; subst. cbn [number] in H. apply IH in H as [Ha Hb]; [|cbn in L; lia|assumption|assumption].
    split; [lia|]. f_equal; [lia|exact Hb].
Qed.
Lemma is_name_unique c n1 n2 : is_name c n1 -> is_name c n2 -> n1 = n2.
Proof.
  intros (d1 & -> & L1 & F1 & V1) (d2 & -> & L2 & F2 & V2). f_equal.
  refine (proj2 (number_inj d1 d2 0 0 _ F1 F2 _)); [exact (eq_trans L1 (eq_sym L2))|congruence].
Qed.

(** The buffer after some rounds. *)
Fixpoint buffer (cs : list Z) (pb : bytes) : out error bytes :=
  match cs with
  | [] => Ret pb
  | c :: cs => let* x := shm_name c pb in buffer cs (snd x)
  end.
Lemma buffer_good cs : forall pb, good_buf pb -> Forall (fun c => 0 <= c) cs ->
  exists pb', buffer cs pb = Ret pb' /\ good_buf pb'.
Proof.
  induction cs as [|c cs IH]; intros pb G F; [exists pb; auto|]. inversion F; subst. cbn [buffer].
  rewrite shm_name_spec by exact G. rewrite (proj2 (Z.ltb_ge c 0)) by assumption. cbn [obind snd].
  apply IH; [apply name_good|assumption].
Qed.
Lemma name_round cs c : Forall (fun c => 0 <= c) cs -> 0 <= c ->
  exists name, (let* pb := buffer cs shm_template in shm_name c pb) = Ret (name, name ++ [0]) /\
    is_name c name /\ length name = 13%nat /\ ~ In 0 name.
Proof.
  intros F Hc. destruct (buffer_good cs _ template_good F) as (pb & -> & G). cbn [obind].
  rewrite shm_name_spec by exact G. rewrite (proj2 (Z.ltb_ge c 0)) by assumption.
  exists (name_for c). split; [reflexivity|]. pose proof (name_for_is c) as N. split; [exact N|].
  destruct N as (d & -> & L & Fd & _). split; [rewrite app_length, L; reflexivity|].
  intros I. apply in_app_or in I as [I|I]; [cbn in I; intuition lia|]. rewrite Forall_forall in Fd. apply Fd in I. lia.
Qed.

Section Names.
  Variable t : target.
  Variable clock : nat -> Z.

  Lemma shm_rounds cols : forall round pb w rest fuel, good_buf pb -> w_orc w = cols ++ rest ->
    (forall i, 0 <= clock i) ->
    (forall i x, nth_error cols i = Some x -> collides clock w (round + i) x) ->
    exists pb', good_buf pb' /\
      shm_loop t clock (length cols + fuel) round pb w = shm_loop t clock fuel (round + length cols) pb' (set_orc w rest).
  Proof.
    induction cols as [|x cols IH]; intros round pb w rest fuel G Hq Hc H.
    - exists pb. split; [exact G|]. cbn [length Nat.add]. rewrite Nat.add_0_r. f_equal. destruct w; cbn in *; subst; reflexivity.
    - cbn [length Nat.add shm_loop]. rewrite shm_name_spec by exact G. rewrite (proj2 (Z.ltb_ge (clock round) 0)) by apply Hc.
      set (path := shm_path (name_for (clock round))).
      assert (E : sys_open t path true true true false w = (Err EEXIST, set_orc w (cols ++ rest))).
      { specialize (H 0%nat x eq_refl). rewrite Nat.add_0_r in H. unfold sys_open, ask. rewrite Hq. cbn [app].
        destruct H as [->|(a & -> & H0 & Hf & Hn)]; [reflexivity|].
        assert (N : new_fd_ok (set_orc w (cols ++ rest)) a = true) by (apply new_fd_ok_iff; auto).
        rewrite N. cbn [negb w_fs set_orc]. specialize (Hn _ (name_for_is _)). fold path in Hn.
        destruct (w_fs w path); [reflexivity|congruence]. }
      rewrite E. cbv zeta. change (raw_os_error (last_os_error MemoryFd EEXIST)) with (Some EEXIST). cbv iota. rewrite Z.eqb_refl.
      destruct (IH (S round) (name_for (clock round) ++ [0]) (set_orc w (cols ++ rest)) rest fuel (name_good _) eq_refl Hc) as (pb' & G' & E').
      + intros i y Hy. specialize (H (S i) y Hy). rewrite Nat.add_succ_r in H. exact H.
      + exists pb'. split; [exact G'|]. rewrite E', Nat.add_succ_r. reflexivity.
  Qed.

  Lemma retry_free w cols fd u q : (forall i, 0 <= clock i) ->
    w_orc w = cols ++ Grant fd :: Grant u :: q ->
    (forall i x, nth_error cols i = Some x -> collides clock w i x) ->
    0 <= fd -> w_fd w fd = None ->
    (forall name, is_name (clock (length cols)) name -> w_fs w (shm_path name) = None) ->
    exists w', memfd_open t Named clock w = (Ret fd, w') /\ opened w w' fd /\
      (forall path, w_fs w' path = w_fs w path) /\ w_orc w' = q.
  Proof.
    intros Hc Hq Hcol Hfd0 Hfd Hn. unfold memfd_open.
    assert (L : S (length (w_orc w)) = (length cols + S (S (S (length q))))%nat) by (rewrite Hq, app_length; cbn; lia).
    rewrite L. destruct (shm_rounds cols 0 _ w _ (S (S (S (length q)))) template_good Hq Hc Hcol) as (pb & G & ->).
    cbn [Nat.add]. remember (S (S (length q))) as fuel. cbn [shm_loop].
    rewrite shm_name_spec by exact G. rewrite (proj2 (Z.ltb_ge (clock _) 0)) by apply Hc.
    specialize (Hn _ (name_for_is _)). set (path := shm_path (name_for (clock (length cols)))) in *. clearbody path.
    assert (N : new_fd_ok (set_orc (set_orc w (Grant fd :: Grant u :: q)) (Grant u :: q)) fd = true) by (apply new_fd_ok_iff; auto).
    unfold sys_open, ask. cbn [w_orc set_orc] in *. rewrite N. cbn [negb w_fs set_orc]. rewrite Hn. cbn [negb].
    unfold sys_shm_unlink, ask. cbn [w_orc set_orc set_fd set_fs set_next set_obj w_fs]. rewrite put_same.
    eexists. split; [reflexivity|]. split; [split; auto|]. split; [|reflexivity].
    intros p. cbn [w_fs set_fs set_orc set_fd snd]. unfold put. destruct (Z.eqb_spec p path) as [->|]; [rewrite Hn|]; reflexivity.
  Qed.

  Lemma retry_stops w cols c q : (forall i, 0 <= clock i) -> c <> EEXIST ->
    w_orc w = cols ++ Refuse c :: q ->
    (forall i x, nth_error cols i = Some x -> collides clock w i x) ->
    exists w', memfd_open t Named clock w = (Err (last_os_error MemoryFd c), w') /\ quiet w w' /\ w_orc w' = q.
  Proof.
    intros Hc Hne Hq Hcol. unfold memfd_open.
    assert (L : S (length (w_orc w)) = (length cols + S (S (length q)))%nat) by (rewrite Hq, app_length; cbn; lia).
    rewrite L. destruct (shm_rounds cols 0 _ w _ (S (S (length q))) template_good Hq Hc Hcol) as (pb & G & ->).
    cbn [Nat.add]. remember (S (length q)) as fuel. cbn [shm_loop].
    rewrite shm_name_spec by exact G. rewrite (proj2 (Z.ltb_ge (clock _) 0)) by apply Hc.
    unfold sys_open, ask. cbn [w_orc set_orc]. cbn. destruct (Z.eqb_spec c EEXIST); [contradiction|].
    eexists. split; [reflexivity|]. split; [split; reflexivity|reflexivity].
  Qed.
End Names.

Section Claims.
  Variable t : target.
  Hypothesis Ht : good_target t.
  Notation P := (t_page t).
  Let HP : 0 < P.
  Proof. exact (pow2_pos _ (proj1 (proj2 Ht))). Qed.

  (** ** Evaluating the calls of a granted allocation *)
  Lemma ask_grant {A} (k : Z -> ST Z A) w a q : w_orc w = Grant a :: q -> ask k w = k a (set_orc w q).
  Proof. intros H. unfold ask. rewrite H. reflexivity. Qed.
  Lemma ask_refuse {A} (k : Z -> ST Z A) w c q : w_orc w = Refuse c :: q -> ask k w = (Err c, set_orc w q).
  Proof. intros H. unfold ask. rewrite H. reflexivity. Qed.

  Lemma eval_memfd w fd q : w_orc w = Grant fd :: q -> 0 <= fd -> w_fd w fd = None ->
    exists w', os_call MemoryFd sys_memfd w = (Ret fd, w') /\ opened w w' fd /\ w_fs w' = w_fs w /\ w_orc w' = q.
  Proof.
    intros Hq H0 Hf. destruct (os_call MemoryFd sys_memfd w) as [r w'] eqn:E. unfold os_call in E.
    destruct (sys_memfd w) as [r1 w1] eqn:E1. pose proof (memfd_spec _ _ _ E1) as S.
    unfold sys_memfd in E1. rewrite (ask_grant _ _ _ _ Hq) in E1.
    assert (N : new_fd_ok (set_orc w q) fd = true) by (apply new_fd_ok_iff; auto).
    rewrite N in E1. cbn [negb] in E1. injection E1 as <- <-. injection E as <- <-.
    eexists. split; [reflexivity|]. destruct S as (O & F & Q). split; [exact O|]. split; [exact F|]. congruence.
  Qed.

  Lemma eval_ftruncate w fd f sz x q : w_orc w = Grant x :: q -> w_fd w fd = Some f -> fd_w f = true -> 0 <= sz ->
    exists w', sys_ftruncate t fd sz w = (Ret tt, w') /\ w_fd w' = w_fd w /\ w_orc w' = q /\
      (forall p, w_vm w p = None -> w_vm w' p = None).
  Proof.
    intros Hq Hf Hw Hs. unfold sys_ftruncate. rewrite (ask_grant _ _ _ _ Hq).
    rewrite (proj2 (Z.ltb_ge sz 0)) by lia. cbn [w_fd set_orc]. rewrite Hf, Hw. cbn [negb].
    eexists. split; [reflexivity|]. split; [reflexivity|]. split; [reflexivity|].
    intros p Hp. cbn. rewrite Hp. reflexivity.
  Qed.

  Lemma eval_reserve w len pg q : w_orc w = Grant pg :: q -> 0 < len -> range_ok t pg len = true ->
    (forall p, pg / P <= p < pg / P + npages t len -> w_vm w p = None) ->
    exists w', sys_mmap t false 0 len PRW false true (-1) 0 w = (Ret pg, w') /\ w_fd w' = w_fd w /\ w_orc w' = q.
  Proof.
    intros Hq Hl Hr Hf. unfold sys_mmap. rewrite (ask_grant _ _ _ _ Hq).
    rewrite (proj2 (Z.leb_gt len 0)) by lia. rewrite Zmod_0_l. change ((0 <? 0) || negb (0 =? 0)) with false. cbv zeta. cbn iota.
    rewrite Hr. assert (F : free_range (set_orc w q) (pg / P) (npages t len) = true) by (apply free_range_iff; exact Hf).
    rewrite F. cbn [negb andb backing]. eexists. split; [reflexivity|]. split; reflexivity.
  Qed.

  Lemma eval_fixed w addr len fd f x q : w_orc w = Grant x :: q -> 0 < len -> range_ok t addr len = true ->
    w_fd w fd = Some f -> fd_w f = true ->
    exists w', sys_mmap t true addr len PRW true false fd 0 w = (Ret addr, w') /\ w_fd w' = w_fd w /\ w_orc w' = q.
  Proof.
    intros Hq Hl Hr Hf Hw. unfold sys_mmap. rewrite (ask_grant _ _ _ _ Hq).
    rewrite (proj2 (Z.leb_gt len 0)) by lia. rewrite Zmod_0_l. change ((0 <? 0) || negb (0 =? 0)) with false. cbv zeta. cbn iota.
    rewrite Hr. cbn [negb andb]. unfold backing. cbn [w_fd set_orc]. rewrite Hf, Hw. cbn [negb andb pr_w PRW].
    eexists. split; [reflexivity|]. split; reflexivity.
  Qed.

  Lemma eval_munmap w pg len x q : w_orc w = Grant x :: q -> 0 < len -> pg mod P = 0 ->
    exists w', os_unmap t pg len w = (Ret tt, w') /\ w_orc w' = q /\ w_fd w' = w_fd w.
  Proof.
    intros Hq Hl Ha. unfold os_unmap, os_call, sys_munmap. rewrite (ask_grant _ _ _ _ Hq).
    rewrite (proj2 (Z.leb_gt len 0)) by lia. rewrite Ha. cbn [Z.eqb negb orb]. eexists. split; [reflexivity|]. split; reflexivity.
  Qed.

  (** ** Which stage fails *)
  Section Stages.
    Variable clock : nat -> Z.
    Variables (len fd pg x1 x3 x4 : Z) (w : world).
    Hypothesis Hw : wf w.
    Hypothesis Hl0 : 0 < len.
    Hypothesis Hl1 : (P | len).
    Hypothesis Hl2 : len < 2 ^ (t_bits t - 1).
    Hypothesis Hfd0 : 0 <= fd.
    Hypothesis Hfd : w_fd w fd = None.
    Hypothesis Hpg : P <= pg /\ pg mod P = 0 /\ pg + 2 * len <= 2 ^ t_bits t - P.
    Hypothesis Hfree : forall p, P * p < pg + 2 * len -> pg < P * p + P -> w_vm w p = None.

    Lemma stages k : (k <= 5)%nat -> forall q,
      w_orc w = firstn k (grants fd x1 pg x3 x4) ++ q ->
      (k = 5%nat -> exists w', map_ring t Anonymous clock len w = (Ret pg, w') /\ w_orc w' = q) /\
      (forall c y z q', q = Refuse c :: Grant y :: z :: q' -> (k < 5)%nat ->
         exists w', map_ring t Anonymous clock len w = (Err (last_os_error (nth_stage k) c), w') /\
           w_orc w' = if (k <? 3)%nat then Grant y :: z :: q' else z :: q').
    Proof.
      intros Hk q Hq. pose proof (bits_half t Ht) as [HB HB0]. destruct Hpg as (Hp1 & Hp2 & Hp3).
      destruct Hl1 as (n & Hn). assert (Hn0 : 0 < n) by nia.
      assert (AS : as_signed t len = len).
      { unfold as_signed. rewrite (proj2 (Z.ltb_lt len _)) by exact Hl2. reflexivity. }
      assert (M1 : umul (E:=error) t len 2 = Ret (2 * len)) by (unfold umul; rewrite wrap_in by lia; f_equal; lia).
      assert (M2 : umul (E:=error) t 2 len = Ret (2 * len)) by (unfold umul; rewrite wrap_in by lia; reflexivity).
      assert (NP1 : npages t len = n) by (rewrite Hn, Z.mul_comm; apply npages_mul, HP).
      assert (NP2 : npages t (2 * len) = 2 * n).
      { replace (2 * len) with (P * (2 * n)) by lia. apply npages_mul, HP. }
      assert (R1 : range_ok t pg (2 * len) = true) by (apply range_ok_iff; rewrite NP2; lia).
      assert (R2 : range_ok t pg len = true) by (apply range_ok_iff; rewrite NP1; lia).
      assert (Hp4 : (pg + len) mod P = 0) by (rewrite Hn, Z.mod_add by lia; exact Hp2).
      assert (R3 : range_ok t (pg + len) len = true) by (apply range_ok_iff; rewrite NP1; lia).
      assert (PA : ptr_add t pg len = pg + len) by (unfold ptr_add, as_usize; rewrite Z.mod_small; lia).
      assert (Fr : forall p, pg / P <= p < pg / P + npages t (2 * len) -> w_vm w p = None).
      { rewrite NP2. intros p Hp. pose proof (Z.div_mod pg P ltac:(lia)) as D. rewrite Hp2 in D. apply Hfree; nia. }
      (* run call after call; each either is the refused one or is granted *)
      assert (Fail0 : forall c y z q', w_orc w = Refuse c :: Grant y :: z :: q' ->
        exists w', map_ring t Anonymous clock len w = (Err (last_os_error MemoryFd c), w') /\ w_orc w' = Grant y :: z :: q').
      { intros c y z q' E. unfold map_ring, tmp_open, memfd_open, sbind, os_call, sys_memfd.
        rewrite (ask_refuse _ _ _ _ E). eexists. split; reflexivity. }
      destruct k as [|k].
      { split; [discriminate|]. intros c y z q' -> _. exact (Fail0 _ _ _ _ Hq). }
      assert (Hq1 : w_orc w = Grant fd :: firstn k [Grant x1; Grant pg; Grant x3; Grant x4] ++ q) by exact Hq.
      destruct (eval_memfd w fd _ Hq1 Hfd0 Hfd) as (w1 & E1 & O1 & S1 & Q1).
      assert (F1 : w_fd w1 fd = Some {| fd_obj := w_next w; fd_w := true |}) by (rewrite (on_fd _ _ _ O1), put_same; reflexivity).
      remember (map_ring t Anonymous clock len w) as R eqn:ER.
      unfold map_ring, tmp_open, memfd_open, sbind at 1 2 in ER. rewrite E1, AS in ER.
      destruct k as [|k].
      { split; [discriminate|]. intros c y z q' -> _. cbn in Q1. unfold sys_ftruncate in ER. rewrite (ask_refuse _ _ _ _ Q1) in ER.
        subst R. eexists. split; reflexivity. }
      assert (Q1' : w_orc w1 = Grant x1 :: firstn k [Grant pg; Grant x3; Grant x4] ++ q) by exact Q1.
      destruct (eval_ftruncate w1 fd _ len _ _ Q1' F1 eq_refl ltac:(lia)) as (w2 & E2 & F2 & Q2 & V2).
      rewrite E2 in ER. unfold wrap_fd, sbind at 1 in ER. cbn [sout] in ER. rewrite M1 in ER.
      assert (Fr2 : forall p, pg / P <= p < pg / P + npages t (2 * len) -> w_vm w2 p = None).
      { intros p Hp. apply V2. rewrite (on_vm _ _ _ O1). apply Fr, Hp. }
      unfold ring_mmap at 1, sbind at 1, os_call at 1 in ER.
      destruct k as [|k].
      { split; [discriminate|]. intros c y z q' -> _. cbn in Q2. unfold sys_mmap at 1 in ER. rewrite (ask_refuse _ _ _ _ Q2) in ER.
        subst R. eexists. split; reflexivity. }
      assert (Q2' : w_orc w2 = Grant pg :: firstn k [Grant x3; Grant x4] ++ q) by exact Q2.
      destruct (eval_reserve w2 (2 * len) pg _ Q2' ltac:(lia) R1 Fr2) as (w3 & E3 & F3 & Q3). rewrite E3 in ER.
      unfold wrap_ptr in ER. rewrite PA in ER. unfold ring_mmap at 1, sbind at 1, os_call at 1 in ER.
      assert (G3 : w_fd w3 fd = Some {| fd_obj := w_next w; fd_w := true |}) by congruence.
      destruct k as [|k].
      { split; [discriminate|]. intros c y z q' -> _. cbn in Q3. unfold sys_mmap at 1 in ER. rewrite (ask_refuse _ _ _ _ Q3) in ER.
        destruct (eval_munmap (set_orc w3 (Grant y :: z :: q')) pg (2 * len) y (z :: q') eq_refl ltac:(lia) Hp2) as (w5 & E5 & Q5 & _).
        unfold sbind, ignore, unmap_ring, sbind in ER. cbn [sout] in ER. rewrite M2, E5 in ER. subst R. eexists. split; [reflexivity|exact Q5]. }
      assert (Q3' : w_orc w3 = Grant x3 :: firstn k [Grant x4] ++ q) by exact Q3.
      destruct (eval_fixed w3 pg len fd _ _ _ Q3' ltac:(lia) R2 G3 eq_refl) as (w4 & E4 & F4 & Q4). rewrite E4 in ER.
      unfold ring_mmap at 1, sbind at 1, os_call at 1 in ER.
      assert (G4 : w_fd w4 fd = Some {| fd_obj := w_next w; fd_w := true |}) by congruence.
      destruct k as [|k].
      { split; [discriminate|]. intros c y z q' -> _. cbn in Q4. unfold sys_mmap at 1 in ER. rewrite (ask_refuse _ _ _ _ Q4) in ER.
        destruct (eval_munmap (set_orc w4 (Grant y :: z :: q')) pg (2 * len) y (z :: q') eq_refl ltac:(lia) Hp2) as (w5 & E5 & Q5 & _).
        unfold sbind, ignore, unmap_ring, sbind in ER. cbn [sout] in ER. rewrite M2, E5 in ER. subst R. eexists. split; [reflexivity|exact Q5]. }
      assert (Q4' : w_orc w4 = Grant x4 :: firstn k [] ++ q) by exact Q4.
      destruct (eval_fixed w4 (pg + len) len fd _ _ _ Q4' ltac:(lia) R3 G4 eq_refl) as (w5 & E5 & F5 & Q5). rewrite E5 in ER.
      split; [|intros; lia]. intros _. subst R. eexists. split; [reflexivity|]. cbn. rewrite Q5. destruct k; reflexivity.
    Qed.

    (** With the address space and the descriptors restored. *)
    Lemma stage_restored k c y z q : (k < 5)%nat ->
      w_orc w = firstn k (grants fd x1 pg x3 x4) ++ Refuse c :: Grant y :: z :: q ->
      let '(r, w') := map_ring t Anonymous clock len w in
      r = Err (last_os_error (nth_stage k) c) /\ untouched w w' /\ (forall path, w_fs w' path = w_fs w path).
    Proof.
      intros Hk Hq. destruct (stages k ltac:(lia) _ Hq) as [_ Sk].
      destruct (Sk c y z q eq_refl Hk) as (w' & E & Q). rewrite E. split; [reflexivity|].
      apply map_ring_spec in E; [|exact Ht|exact Hw|].
      2:{ pose proof (bits_half t Ht). unfold is_usize. lia. }
      destruct E as (_ & _ & N & F & O & V). destruct N as [N|[N _]]; [|discriminate N].
      split; [|exact N]. destruct V as [V|(Op & R & _)]; [split; assumption|].
      exfalso. destruct R as [R|(q0 & e & R)].
      - rewrite R in Q. destruct (k <? 3)%nat; discriminate.
      - destruct k as [|[|[|k]]]; cbn in Op; try (destruct Op; discriminate).
        rewrite Hq, Q in R. cbn [Nat.ltb Nat.leb] in R.
        assert (RR : (firstn (S (S (S k))) (grants fd x1 pg x3 x4) ++ [Refuse c]) ++ [Grant y] = q0 ++ [Refuse e]).
        { apply (app_inv_tail (z :: q)). rewrite <- !app_assoc. exact R. }
        apply app_inj_tail in RR as [_ RR]. discriminate.
    Qed.
  End Stages.

  (** ** Ring::new and drop (src/io/ring.rs) *)
  Lemma drop_spec pg len w r w' : 0 < len < 2 ^ (t_bits t - 1) -> pg mod P = 0 ->
    ring_drop t {| ra_ptr := pg; ra_len := len |} w = (r, w') ->
    r = Ret tt /\ w_obj w' = w_obj w /\ w_next w' = w_next w /\ w_fd w' = w_fd w /\ w_fs w' = w_fs w /\
    (((exists x, w_orc w = Grant x :: w_orc w') /\
      forall p, w_vm w' p = if in_pages (pg / P) (npages t (2 * len)) p then None else w_vm w p) \/
     (refused_last w w' /\ w_vm w' = w_vm w)).
  Proof.
    intros Hl Ha H. pose proof (bits_half t Ht) as [HB _].
    unfold ring_drop, ignore, unmap_ring, sbind in H. cbn [sout ra_ptr ra_len] in H.
    assert (M2 : umul (E:=error) t 2 len = Ret (2 * len)) by (unfold umul; rewrite wrap_in by lia; reflexivity).
    rewrite M2 in H. unfold os_unmap, os_call in H.
    destruct (sys_munmap t pg (2 * len) w) as [r4 w4] eqn:E4. unfold sys_munmap in E4.
    apply ask_inv2 in E4 as [(e & -> & [Q1 Q2 Q3 Q4 Q5] & CC)|(a & oo & Ho & E4)].
    - injection H as <- <-. do 5 (split; [first [assumption|reflexivity]|]). right. split; [|exact Q1].
      destruct CC as [[CC _]|CC]; [left; exact CC|right]. exists [], e. exact CC.
    - rewrite Ha in E4. rewrite (proj2 (Z.leb_gt (2 * len) 0)) in E4 by lia. cbn [Z.eqb negb orb] in E4.
      assert (G : r4 = Ret tt /\ w_vm w4 = (fun p => if in_pages (pg / P) (npages t (2 * len)) p then None else w_vm w p) /\
          w_obj w4 = w_obj w /\ w_next w4 = w_next w /\ w_fd w4 = w_fd w /\ w_fs w4 = w_fs w /\ w_orc w4 = oo)
          by (injection E4 as <- <-; repeat split).
      destruct G as (-> & G1 & G2 & G3 & G4 & G5 & G6). injection H as <- <-.
      do 5 (split; [first [assumption|reflexivity]|]). left. split; [exists a; congruence|]. intros p. rewrite G1. reflexivity.
  Qed.

  Variable plat : platform.
  Variable clock : nat -> Z.

  Lemma alloc_word : t_alloc t < 2 ^ t_bits t.
  Proof.
    pose proof Ht as (Hb & _ & _ & _ & H & _). assert (2 ^ 32 < 2 ^ 64) by reflexivity.
    destruct Hb as [E|E]; rewrite E; lia.
  Qed.

  Lemma round_cases hint : is_usize t hint ->
    match size_round (E:=error) t (size_alloc t) hint with
    | Ret len => is_usize t len /\ (0 < len -> is_ceil (t_alloc t) hint len)
    | Panic => t_checks t = true
    | _ => False
    end.
  Proof.
    intros Hh. pose proof alloc_word as Hw. pose proof Ht as (_ & _ & Hp & _).
    pose proof (bits_pos t Ht) as Hb. pose proof (pow2_pos _ Hp) as Hp0. unfold size_alloc.
    unfold is_usize in *. destruct (Z.lt_trichotomy (hint + t_alloc t) (2 ^ t_bits t)) as [C|[C|C]].
    - rewrite (size_round_in t ltac:(lia) _ Hp Hw hint (proj1 Hh) C).
      change (t_alloc t * ((hint + t_alloc t - 1) / t_alloc t)) with (rup (t_alloc t) hint).
      pose proof (rup_spec _ hint Hp0) as [R1 R2]. split; [lia|]. intros _. split; [exact R1|]. split; [lia|].
      intros r' D L. exact (rup_least _ _ _ Hp0 D L).
    - rewrite (size_round_edge t ltac:(lia) _ Hp Hw _ C). destruct (t_checks t); [reflexivity|].
      split; [exact Hh|]. intros _. split.
      + replace hint with (2 ^ t_bits t - t_alloc t) by lia.
        apply Z.divide_sub_r; [|apply Z.divide_refl]. apply (unit_divides_word t ltac:(lia) _ Hp Hw).
      + split; [lia|]. intros r' _ L. exact L.
    - rewrite (size_round_over t ltac:(lia) _ Hp Hw _ Hh C). destruct (t_checks t); [reflexivity|].
      split; [lia|]. lia.
  Qed.

  Lemma ring_new_spec hint w r w' : wf w -> is_usize t hint -> ring_new t plat clock hint w = (r, w') ->
    consumed w w' /\
    match r with
    | Ret a => is_ceil (t_alloc t) hint (ra_len a) /\ allocated t plat w w' (ra_ptr a) (ra_len a)
    | Err e => stage_error e /\ names_kept plat w w' /\
        (forall fd, w_fd w' fd = w_fd w fd) /\ (forall o, o < w_next w -> w_obj w' o = w_obj w o) /\
        ((forall p, w_vm w' p = w_vm w p) \/ (refused_last w w' /\ exists len, left_mapped t w w' len))
    | Panic => quiet w w' /\ (t_checks t = true \/ (plat = Named /\ exists k, clock k < 0))
    | _ => False
    end.
  Proof.
    intros Hw Hh H. unfold ring_new, sbind in H. cbn [sout] in H. pose proof (round_cases hint Hh) as R.
    destruct (size_round t (size_alloc t) hint) as [len|e| | |]; try contradiction.
    - destruct R as [Hl HC]. destruct (map_ring t plat clock len w) as [r1 w1] eqn:E.
      apply map_ring_spec in E; [|exact Ht|exact Hw|exact Hl]. destruct E as [C E].
      destruct r1 as [pg|e| | |]; try contradiction; cbn in H; injection H as <- <-; (split; [exact C|]).
      + cbn. split; [|exact E]. apply HC. destruct (al_n _ _ _ _ _ _ E) as (n & Hn & -> & _). nia.
      + destruct E as (S & N & F & O & V). do 4 (split; [assumption|]).
        destruct V as [V|(_ & R & L)]; [left; exact V|right]. split; [exact R|]. exists len. exact L.
      + destruct E as (Q & Hp & k). auto.
    - injection H as <- <-. split; [apply consumed_refl|]. split; [apply quiet_refl|]. auto.
  Qed.

  (** Stores through a ring change nothing but its own bytes. *)
  Lemma put_all_spec pg n o l : forall w m, ringed t w pg n o m -> Forall (fun x => 0 <= fst x < 2 * (P * n)) l ->
    exists w', put_all t pg l w = (Ret tt, w') /\ w_vm w' = w_vm w /\ w_next w' = w_next w /\ w_fd w' = w_fd w /\
      w_fs w' = w_fs w /\ w_orc w' = w_orc w /\ (forall o', o' <> o -> w_obj w' o' = w_obj w o').
  Proof.
    induction l as [|[v b] l IH]; intros w m R F; cbn [put_all].
    - exists w. auto 10.
    - apply Forall_cons_iff in F as [Hv F]. cbn [fst] in Hv.
      destruct (ring_store t Ht w pg n o m v b R Hv) as (w1 & S & R1 & V1 & N1 & F1 & S1 & Q1 & O1 & _).
      destruct (IH w1 _ R1 F) as (w2 & E2 & V2 & N2 & F2 & S2 & Q2 & O2).
      exists w2. unfold sbind. rewrite S. split; [exact E2|]. do 5 (split; [congruence|]).
      intros o' Ho. rewrite O2, O1; auto.
  Qed.

  Lemma life_cycle hint l w a w1 : wf w -> is_usize t hint -> ring_new t plat clock hint w = (Ret a, w1) ->
    Forall (fun x => 0 <= fst x < 2 * ra_len a) l ->
    let '(r2, w2) := put_all t (ra_ptr a) l w1 in
    let '(r3, w3) := ring_drop t a w2 in
    r2 = Ret tt /\ r3 = Ret tt /\ (forall fd, w_fd w3 fd = w_fd w fd) /\
    (forall o, o < w_next w -> w_obj w3 o = w_obj w o) /\
    ((forall p, w_vm w3 p = w_vm w p) \/ (refused_last w2 w3 /\ w_vm w3 = w_vm w1)).
  Proof.
    intros Hw Hh H F. apply ring_new_spec in H as (C & _ & A); [|exact Hw|exact Hh].
    pose proof (allocated_ringed t plat w w1 _ _ Hw A) as (n & Hn & R). destruct a as [pg len]. cbn [ra_ptr ra_len] in *.
    destruct A as [(n' & Hn0 & Hn' & Fr & V) A1 A2 A3 A4 A5 A6 A7 A8 A9].
    assert (n' = n) by nia. subst n'.
    assert (Hl : 0 < len < 2 ^ (t_bits t - 1)). { pose proof (bits_half t Ht). lia. }
    rewrite Hn in F. destruct (put_all_spec pg n _ l w1 _ R F) as (w2 & E2 & V2 & N2 & F2 & S2 & Q2 & O2). rewrite E2.
    destruct (ring_drop t {| ra_ptr := pg; ra_len := len |} w2) as [r3 w3] eqn:E3.
    apply drop_spec in E3; [|exact Hl|exact A1]. destruct E3 as (-> & B3 & N3 & F3 & S3 & D).
    split; [reflexivity|]. split; [reflexivity|]. split; [intros fd; rewrite F3, F2; apply A6|].
    split. { intros o Ho. rewrite B3, O2 by lia. apply A7, Ho. }
    destruct D as [[_ D]|[D1 D2]].
    - left. intros p. rewrite D, V2, V. unfold two_views.
      replace (npages t (2 * len)) with (2 * n) by (replace (2 * len) with (P * (2 * n)) by lia; symmetry; apply npages_mul, HP).
      destruct (in_pages_cases (pg / P) (2 * n) p) as [[-> I]|[-> I]]; [symmetry; apply Fr, I|].
      rewrite !in_pages_no by lia. reflexivity.
    - right. split; [exact D1|]. congruence.
  Qed.
End Claims.

(** ** The memory of RingModel.v *)
Lemma put_all_app t pg l1 : forall l2 w, put_all t pg (l1 ++ l2) w = sbind (put_all t pg l1) (fun _ => put_all t pg l2) w.
Proof.
  induction l1 as [|[v b] l1 IH]; intros l2 w; [reflexivity|]. cbn [app put_all]. unfold sbind at 1 2 3.
  destruct (store t (pg + v) b w) as [[u|e| | |] w1]; try reflexivity. rewrite IH. reflexivity.
Qed.

(** What a mirrored range shows after stores is again a mirrored range. *)
Lemma mirrored_step t w pg n m l : mirrored t w pg n m -> Forall (fun x => 0 <= fst x < 2 * n) l ->
  let '(r, w') := put_all t pg l w in r = Ret tt /\ mirrored t w' pg n (folded n m l).
Proof.
  intros M F. pose proof (M l F) as L. destruct (put_all t pg l w) as [r w'] eqn:E. destruct L as (-> & L1 & L2).
  split; [reflexivity|]. intros l' F'.
  assert (FA : Forall (fun x => 0 <= fst x < 2 * n) (l ++ l')) by (apply Forall_app; auto).
  pose proof (M (l ++ l') FA) as L. rewrite put_all_app in L. unfold sbind in L. rewrite E in L.
  destruct (put_all t pg l' w') as [r2 w2]. destruct L as (-> & L3 & L4).
  split; [reflexivity|]. split.
  - intros v Hv. rewrite L3 by exact Hv. unfold folded. rewrite fold_left_app. reflexivity.
  - intros a Ha. rewrite L4, L2 by exact Ha. reflexivity.
Qed.

Lemma vstore_folded n d : forall m off, folded n m (from_offset off d) = vstore n m off d.
Proof.
  induction d as [|b d IH]; intros m off; [reflexivity|]. cbn [from_offset vstore]. rewrite <- IH. reflexivity.
Qed.
Lemma from_offset_in n d : forall off, 0 <= off -> off + zlen d <= n -> Forall (fun x => 0 <= fst x < n) (from_offset off d).
Proof.
  unfold zlen. induction d as [|b d IH]; intros off H0 H; [constructor|]. cbn [from_offset length] in *. constructor.
  - cbn. lia.
  - apply IH; lia.
Qed.

Lemma ring_memory t w pg n m off d : mirrored t w pg n m -> 0 <= off -> off + zlen d <= 2 * n ->
  let '(r, w') := put_all t pg (from_offset off d) w in r = Ret tt /\ mirrored t w' pg n (vstore n m off d).
Proof.
  intros M H0 H. pose proof (mirrored_step t w pg n m (from_offset off d) M (from_offset_in _ _ _ H0 H)) as S.
  rewrite vstore_folded in S. exact S.
Qed.

Lemma ring_slice t w pg n m off k : mirrored t w pg n m -> 0 <= off -> 0 <= k -> off + k <= 2 * n ->
  load_all t w (pg + off) (Z.to_nat k) = Ret (view (mirror m n) off k).
Proof.
  intros M H0 Hk H. unfold view. specialize (M [] (Forall_nil _)). unfold put_all, sret in M. destruct M as (_ & M & _).
  assert (H' : off + Z.of_nat (Z.to_nat k) <= 2 * n) by lia. clear Hk H. revert off H0 H'. generalize (Z.to_nat k) as j. clear k.
  induction j as [|j IH]; intros off H0 H; [reflexivity|]. cbn [load_all].
  rewrite M by lia. cbn [obind]. replace (pg + off + 1) with (pg + (off + 1)) by lia.
  rewrite IH by lia. cbn [obind seq map]. unfold mirror at 2. rewrite Z.add_0_r. f_equal. f_equal.
  rewrite <- seq_shift, map_map. apply map_ext. intros i. f_equal. lia.
Qed.
