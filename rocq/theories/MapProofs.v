(** Lemmas about src/map.rs over the kernel model. *)
From Coq Require Import Lia.
From Verif Require Import Base ErrorModel SizeModel SizeProofs OsModel MapModel MapSpec OsProofs.

Lemma sbind_ret {E A B} (m : ST E A) (k : A -> ST E B) w r w' : sbind m k w = (r, w') ->
  (exists a w1, m w = (Ret a, w1) /\ k a w1 = (r, w')) \/
  (exists e, m w = (Err e, w') /\ r = Err e) \/ (m w = (Panic, w') /\ r = Panic) \/
  (m w = (Fault, w') /\ r = Fault) \/ (m w = (Blocked, w') /\ r = Blocked).
Proof.
  unfold sbind. destruct (m w) as [[a|e| | |] w1]; intros H.
  - left. exists a, w1. auto.
  - right; left. exists e. injection H as <- <-. auto.
  - right; right; left. injection H as <- <-. auto.
  - right; right; right; left. injection H as <- <-. auto.
  - right; right; right; right. injection H as <- <-. auto.
Qed.

(** The effect of the file part of a mapping call: only object [o] changes,
    entries keep their place; on storage each byte is the old one (if the
    cached one did not change either) or the cached one. *)
Record touched (o : Z) (w w' : world) : Prop := {
  tc_vm : forall p, match w_vm w p, w_vm w' p with
            | Some e, Some e' => same_place e e' /\
                (p_copy e' = p_copy e \/ (p_copy e' = None /\ p_obj e = o /\ p_shared e = false))
            | None, None => True
            | _, _ => False
            end;
  tc_next : w_next w' = w_next w;
  tc_fd : w_fd w' = w_fd w;
  tc_fs : w_fs w' = w_fs w;
  tc_obj : forall o', o' <> o -> w_obj w' o' = w_obj w o';
  tc_disk : forall i, (o_disk (w_obj w' o) i = o_disk (w_obj w o) i /\ o_data (w_obj w' o) i = o_data (w_obj w o) i) \/
                      o_disk (w_obj w' o) i = o_data (w_obj w' o) i
}.

Lemma quiet_touched o w w' : quiet w w' -> touched o w w'.
Proof.
  intros [V O N F S]. split; try congruence; try (rewrite O; auto).
  intros p. rewrite V. destruct (w_vm w p) as [e|]; [|exact I]. split; [apply same_place_refl|auto].
Qed.
Lemma touched_refl o w : touched o w w.
Proof. apply quiet_touched, quiet_refl. Qed.

Lemma touched_trans o w1 w2 w3 : touched o w1 w2 -> touched o w2 w3 -> touched o w1 w3.
Proof.
  intros [V1 N1 F1 S1 O1 D1] [V2 N2 F2 S2 O2 D2]. split; try congruence.
  - intros p. specialize (V1 p). specialize (V2 p).
    destruct (w_vm w1 p) as [e1|]; destruct (w_vm w2 p) as [e2|]; destruct (w_vm w3 p) as [e3|]; try tauto.
    destruct V1 as [P1 C1]. destruct V2 as [P2 C2]. split; [eapply same_place_trans; eassumption|].
    destruct P1 as (Eo & _ & _ & _ & _ & Es & _).
    destruct C2 as [C2|(C2 & X & Y)]; [destruct C1 as [C1|C1]; [left; congruence|right; rewrite C2; tauto]|].
    right. repeat split; congruence.
  - intros o' H. rewrite O2, O1 by exact H. reflexivity.
  - intros i. destruct (D2 i) as [[A B]|A]; [|right; exact A]. destruct (D1 i) as [[A' B']|A'].
    + left. split; congruence.
    + right. congruence.
Qed.

Lemma resize_touched t o sz w orc : touched o w (resize_obj t o sz (set_orc w orc)).
Proof.
  destruct (resize_obj_spec t o sz (set_orc w orc)) as (V & N & F & S & O & Sz & D & K).
  split; try assumption.
  - intros p. specialize (V p). cbn [w_vm set_orc] in V. destruct (w_vm w p) as [e|];
      destruct (w_vm (resize_obj t o sz (set_orc w orc)) p) as [e'|]; try tauto.
  - intros i. rewrite D, K. cbn [w_obj set_orc]. destruct (i <? Z.min (o_size (w_obj w o)) sz); auto.
Qed.

Section Map.
  Variable t : target.
  Hypothesis Ht : posix_target t.
  Notation P := (t_page t).

  Lemma bits_ge : 32 <= t_bits t.
  Proof. exact (bits_pos t (proj1 Ht)). Qed.
  Lemma bits_pos0 : 0 < t_bits t.
  Proof. pose proof bits_ge. lia. Qed.
  Lemma P_pos : 0 < P.
  Proof. destruct Ht as [(_ & _ & _ & _ & _ & H) _]. lia. Qed.
  Lemma P_pow2 : pow2 P.
  Proof. destruct Ht as [(_ & H & _) _]. exact H. Qed.
  Lemma P_word : P < 2 ^ t_bits t.
  Proof.
    destruct Ht as [(_ & _ & _ & H1 & H2 & _) _]. pose proof bits_ge.
    pose proof (Z.pow_le_mono_r 2 32 (t_bits t) ltac:(lia) ltac:(lia)). lia.
  Qed.
  Lemma alloc_page : t_alloc t = P.
  Proof. exact (proj2 Ht). Qed.

  Lemma page_div x : P * (x / P) + x mod P = x /\ 0 <= x mod P < P.
  Proof. pose proof P_pos. pose proof (Z.div_mod x P ltac:(lia)). pose proof (Z.mod_pos_bound x P). lia. Qed.

  Lemma off_mult x : is_usize t x -> P * (x / P) <= x.
  Proof. intros _. pose proof (page_div x). lia. Qed.

  (** ** The resize closure and the file part of map_if *)
  Lemma set_len_spec fd sz w r w' : file_set_len t fd sz w = (r, w') ->
    match r with
    | Ret _ => exists f o, w_fd w fd = Some f /\ fd_w f = true /\ 0 <= sz /\ w' = resize_obj t (fd_obj f) sz (set_orc w o)
    | Err _ => quiet w w'
    | _ => False
    end.
  Proof.
    unfold file_set_len. destruct (2 ^ 63 - 1 <? sz); intros H; [injection H as <- <-; apply quiet_refl|].
    destruct (sys_ftruncate t fd sz w) as [r1 w1] eqn:E. apply ftruncate_spec in E.
    destruct r1 as [[]|e| | |]; try contradiction E; injection H as <- <-; exact E.
  Qed.

  Lemma resize_to_spec fd sz w r w' : is_usize t sz -> resize_to t fd sz w = (r, w') ->
    match r with
    | Ret n => n = sz /\ exists f o, w_fd w fd = Some f /\ fd_w f = true /\ w' = resize_obj t (fd_obj f) sz (set_orc w o)
    | Err e => e_op e = MapFile /\ quiet w w'
    | _ => False
    end.
  Proof.
    intros Hs. assert (Es : as_u64 sz = sz).
    { unfold as_u64. apply Z.mod_small. unfold is_usize in Hs.
      assert (2 ^ t_bits t <= 2 ^ 64); [|lia].
      destruct Ht as [([->| ->] & _) _]; [apply Z.pow_le_mono_r; lia|lia]. }
    unfold resize_to, sbind, io_call. rewrite Es.
    destruct (file_set_len t fd sz w) as [r1 w1] eqn:E. apply set_len_spec in E.
    destruct r1 as [[]|e| | |]; try contradiction E; unfold sret; intros H; injection H as <- <-.
    - split; [reflexivity|]. destruct E as (f & o & H1 & H2 & _ & H4). eauto.
    - split; [reflexivity|exact E].
  Qed.

  (** The part of map_if before the offset is looked at (src/map.rs:1184-1197). *)
  Definition file_stage (o : options) (fd : Z) : ST error Z :=
    do* flen <- (do* l <- io_call (file_len fd); sret (as_usize t l));
    do* flen <- (if op_truncate o && (0 <? flen) then resize_to t fd 0 else sret flen);
    match op_resize o with
    | ExtExact sz => resize_to t fd sz
    | ExtMin sz => if flen <? sz then resize_to t fd sz else sret flen
    | ExtMax sz => if sz <? flen then resize_to t fd sz else sret flen
    | ExtEnd => sret flen
    end.
  Definition map_stage (o : options) (fd flen : Z) : ST error (option mapping) :=
    let off := op_offset o in
    if flen <? off then sret None
    else
      do* max <- sout (usub t flen off);
      match extent_len (op_len o) max with
      | None => sret None
      | Some len =>
        do* mapoff <- sout (size_truncate t (size_alloc t) off);
        do* d <- sout (usub t off mapoff);
        do* maplen <- sout (uadd t len d);
        do* ptr <- os_map_file t fd mapoff maplen (op_protect o);
        sret (Some {| m_ptr := ptr_add t ptr d; m_len := len |})
      end.

  Lemma sbind_assoc {E A B C} (m : ST E A) (k : A -> ST E B) (h : B -> ST E C) w :
    sbind (sbind m k) h w = sbind m (fun a => sbind (k a) h) w.
  Proof. unfold sbind. destruct (m w) as [[a|e| | |] w1]; reflexivity. Qed.

  Lemma sbind_assoc3 {E A B C D} (m : ST E A) (k : A -> ST E B) (h : B -> ST E C) (g : C -> ST E D) w :
    sbind m (fun a => sbind (k a) (fun b => sbind (h b) g)) w = sbind (sbind m (fun a => sbind (k a) h)) g w.
  Proof.
    unfold sbind. destruct (m w) as [[a|e| | |] w1]; try reflexivity.
    destruct (k a w1) as [[b|e| | |] w2]; reflexivity.
  Qed.

  Lemma map_if_stages o fd w : map_if t o fd w = sbind (file_stage o fd) (map_stage o fd) w.
  Proof.
    exact (sbind_assoc3 (do* l <- io_call (file_len fd); sret (as_usize t l))
      (fun flen => if op_truncate o && (0 <? flen) then resize_to t fd 0 else sret flen)
      (fun flen => match op_resize o with
        | ExtExact sz => resize_to t fd sz
        | ExtMin sz => if flen <? sz then resize_to t fd sz else sret flen
        | ExtMax sz => if sz <? flen then resize_to t fd sz else sret flen
        | ExtEnd => sret flen
        end) (map_stage o fd) w).
  Qed.

  (** The object's length after the file part is [L] unless nothing was
      resized (then a file of 2^32 bytes or more on a 32-bit target is taken
      for a shorter one). *)
  Lemma file_stage_spec o fd w f r w' : wf w -> options_ok t o -> w_fd w fd = Some f ->
    file_stage o fd w = (r, w') ->
    let ob := fd_obj f in let sz := o_size (w_obj w ob) in let sz' := o_size (w_obj w' ob) in
    let l0 := as_usize t sz in
    touched ob w w' /\ (sz' = sz \/ is_usize t sz') /\
    (is_usize t sz -> sz' < sz ->
       op_truncate o = true \/ (exists n, op_resize o = ExtExact n) \/ (exists n, op_resize o = ExtMax n)) /\
    match r with
    | Ret L => is_usize t L /\ L = final_len (op_truncate o) (op_resize o) l0 /\ L <= sz' /\
        (is_usize t sz -> sz' = L) /\
        (L <> l0 -> sz' = L) /\
        (is_usize t sz -> forall i, i < L -> o_data (w_obj w' ob) i =
           if i <? kept_len (op_truncate o) (op_resize o) l0 then o_data (w_obj w ob) i else 0)
    | Err e => e_op e = MapFile
    | _ => False
    end.
  Proof.
    intros W (Or & Ol & Oo) Hf H. cbv zeta. set (ob := fd_obj f).
    pose proof (wf_size _ W ob) as Hs0. pose proof P_pos. pose proof bits_ge.
    assert (Hw : 0 < 2 ^ t_bits t) by lia.
    assert (U0 : is_usize t 0) by (split; lia).
    assert (Hl0 : 0 <= as_usize t (o_size (w_obj w ob)) < 2 ^ t_bits t) by (apply Z.mod_pos_bound; lia).
    assert (Hl0s : as_usize t (o_size (w_obj w ob)) <= o_size (w_obj w ob)) by (apply Z.mod_le; lia).
    assert (Hl0u : is_usize t (o_size (w_obj w ob)) -> o_size (w_obj w ob) = as_usize t (o_size (w_obj w ob))).
    { intros [A B]. symmetry. apply Z.mod_small. lia. }
    set (l0 := as_usize t (o_size (w_obj w ob))) in *.
    unfold file_stage in H. apply sbind_ret in H as [(l & w1 & E1 & H)|H].
    2:{ unfold sbind, io_call, file_len in H.
        destruct (sys_fstat fd w) as [r1 w1] eqn:E. apply fstat_spec in E as [Q E].
        destruct r1 as [n|e| | |]; try contradiction E; unfold sret in H;
          (destruct H as [(e' & H & ->)|[(H & ->)|[(H & ->)|(H & ->)]]]; try discriminate H).
        injection H as <- <-. split; [apply quiet_touched, Q|]. rewrite (q_obj _ _ Q). split; [auto|]. split; [lia|reflexivity]. }
    assert (El : l = l0 /\ quiet w w1).
    { unfold sbind, io_call, file_len in E1. destruct (sys_fstat fd w) as [r1 w1'] eqn:E. apply fstat_spec in E as [Q E].
      destruct r1 as [n|e| | |]; try contradiction E; unfold sret in E1; try discriminate E1.
      injection E1 as <- <-. destruct E as (f' & Ef' & ->). rewrite Hf in Ef'. injection Ef' as <-. auto. }
    destruct El as [-> Q1]. clear E1. pose proof (quiet_touched ob _ _ Q1) as T1.
    assert (Hf1 : w_fd w1 fd = Some f) by (rewrite (q_fd _ _ Q1); exact Hf).
    assert (S1 : w_obj w1 ob = w_obj w ob) by (rewrite (q_obj _ _ Q1); reflexivity).
    (* second stage: truncation *)
    set (l1 := if op_truncate o then 0 else l0).
    apply sbind_ret in H as [(l' & w2 & E2 & H)|H].
    2:{ destruct (op_truncate o && (0 <? l0)) eqn:Et.
        - apply andb_prop in Et as [Et1 Et2].
          destruct (resize_to t fd 0 w1) as [r1 w2] eqn:E. apply (resize_to_spec _ _ _ _ _ U0) in E.
          destruct r1 as [n|e| | |]; try contradiction E;
            (destruct H as [(e' & H & ->)|[(H & ->)|[(H & ->)|(H & ->)]]]; try discriminate H).
          injection H as <- <-. destruct E as [Op Q2]. split; [eapply touched_trans; [exact T1|apply quiet_touched, Q2]|].
          rewrite (q_obj _ _ Q2), S1. split; [auto|]. split; [lia|exact Op].
        - unfold sret in H. destruct H as [(e' & H & ->)|[(H & ->)|[(H & ->)|(H & ->)]]]; discriminate H. }
    assert (St2 : l' = l1 /\ touched ob w w2 /\ w_fd w2 fd = Some f /\ 0 <= l1 < 2 ^ t_bits t /\
      l1 <= o_size (w_obj w2 ob) /\ (o_size (w_obj w2 ob) < o_size (w_obj w ob) -> op_truncate o = true) /\
      (o_size (w_obj w2 ob) = l1 \/ (l1 = l0 /\ o_size (w_obj w2 ob) = o_size (w_obj w ob))) /\
      (forall i, i < l1 -> o_data (w_obj w2 ob) i = o_data (w_obj w ob) i)).
    { destruct (op_truncate o && (0 <? l0)) eqn:Et.
      - apply andb_prop in Et as [Et1 Et2]. apply Z.ltb_lt in Et2.
        apply (resize_to_spec _ _ _ _ _ U0) in E2. destruct E2 as (-> & f' & oo & Ef' & Ew & ->).
        rewrite Hf1 in Ef'. injection Ef' as <-. fold ob.
        destruct (resize_obj_spec t ob 0 (set_orc w1 oo)) as (V & N & F & S & O & Sz & D & K).
        unfold l1. rewrite Et1.
        split; [reflexivity|]. split; [eapply touched_trans; [exact T1|apply resize_touched]|].
        split; [rewrite F; exact Hf1|]. split; [lia|]. split; [lia|]. split; [auto|]. split; [left; exact Sz|].
        intros i Hi. rewrite D. cbn [w_obj set_orc]. rewrite S1. rewrite (Z.min_r _ 0) by lia.
        destruct (i <? 0) eqn:E; [reflexivity|apply Z.ltb_ge in E; lia].
      - unfold sret in E2. injection E2 as <- <-.
        assert (E1 : l0 = l1). { unfold l1. destruct (op_truncate o); [|reflexivity]. cbn in Et. apply Z.ltb_ge in Et. lia. }
        rewrite <- E1. rewrite S1.
        split; [reflexivity|]. split; [exact T1|]. split; [exact Hf1|]. split; [exact Hl0|]. split; [exact Hl0s|]. split; [lia|].
        split; [right; auto|]. intros; reflexivity. }
    clear E2. destruct St2 as (-> & T2 & Hf2 & Hl1 & Hs2 & Hg2 & Hz2 & Hd2).
    (* the resize *)
    assert (Sz2 : o_size (w_obj w2 ob) = o_size (w_obj w ob) \/ is_usize t (o_size (w_obj w2 ob))).
    { destruct Hz2 as [Z1|[_ Z2]]; [right; rewrite Z1; exact Hl1|left; exact Z2]. }
    assert (Keep : kept_len (op_truncate o) (op_resize o) l0 = Z.min l1 (final_len (op_truncate o) (op_resize o) l0)) by reflexivity.
    assert (Same : final_len (op_truncate o) (op_resize o) l0 = l1 ->
       touched ob w w2 /\ (o_size (w_obj w2 ob) = o_size (w_obj w ob) \/ is_usize t (o_size (w_obj w2 ob))) /\
       (is_usize t (o_size (w_obj w ob)) -> o_size (w_obj w2 ob) < o_size (w_obj w ob) ->
         op_truncate o = true \/ (exists n, op_resize o = ExtExact n) \/ (exists n, op_resize o = ExtMax n)) /\
       is_usize t l1 /\ l1 = final_len (op_truncate o) (op_resize o) l0 /\ l1 <= o_size (w_obj w2 ob) /\
       (is_usize t (o_size (w_obj w ob)) -> o_size (w_obj w2 ob) = l1) /\
       (l1 <> l0 -> o_size (w_obj w2 ob) = l1) /\
       (is_usize t (o_size (w_obj w ob)) -> forall i, i < l1 -> o_data (w_obj w2 ob) i =
          if i <? kept_len (op_truncate o) (op_resize o) l0 then o_data (w_obj w ob) i else 0)).
    { intros EF. split; [exact T2|]. split; [exact Sz2|]. split; [intros _ X; left; exact (Hg2 X)|].
      split; [exact Hl1|]. split; [congruence|]. split; [exact Hs2|].
      split; [intros U; destruct Hz2 as [Z1|[Z1 Z2]]; [exact Z1|rewrite Z2, (Hl0u U); congruence]|].
      split; [intros U; destruct Hz2 as [Z1|[Z1 Z2]]; [exact Z1|contradiction]|].
      intros _ i Hi. rewrite Keep, EF, Z.min_id. rewrite (proj2 (Z.ltb_lt i l1) Hi). apply Hd2, Hi. }
    assert (Diff : forall n, is_usize t n -> final_len (op_truncate o) (op_resize o) l0 = n ->
       (is_usize t (o_size (w_obj w ob)) -> n < o_size (w_obj w ob) ->
         op_truncate o = true \/ (exists n, op_resize o = ExtExact n) \/ (exists n, op_resize o = ExtMax n)) ->
       resize_to t fd n w2 = (r, w') ->
       touched ob w w' /\ (o_size (w_obj w' ob) = o_size (w_obj w ob) \/ is_usize t (o_size (w_obj w' ob))) /\
       (is_usize t (o_size (w_obj w ob)) -> o_size (w_obj w' ob) < o_size (w_obj w ob) ->
         op_truncate o = true \/ (exists n, op_resize o = ExtExact n) \/ (exists n, op_resize o = ExtMax n)) /\
       match r with
       | Ret L => is_usize t L /\ L = final_len (op_truncate o) (op_resize o) l0 /\ L <= o_size (w_obj w' ob) /\
           (is_usize t (o_size (w_obj w ob)) -> o_size (w_obj w' ob) = L) /\
           (L <> l0 -> o_size (w_obj w' ob) = L) /\
           (is_usize t (o_size (w_obj w ob)) -> forall i, i < L -> o_data (w_obj w' ob) i =
              if i <? kept_len (op_truncate o) (op_resize o) l0 then o_data (w_obj w ob) i else 0)
       | Err e => e_op e = MapFile
       | _ => False
       end).
    { intros n Un EF Sh E. apply (resize_to_spec _ _ _ _ _ Un) in E. destruct r as [L|e| | |]; try contradiction E.
      - destruct E as (-> & f' & oo & Ef' & Ew & ->). rewrite Hf2 in Ef'. injection Ef' as <-. fold ob.
        destruct (resize_obj_spec t ob n (set_orc w2 oo)) as (V & N & F & S & O & Sz & D & K).
        split; [eapply touched_trans; [exact T2|apply resize_touched]|]. rewrite Sz.
        split; [right; exact Un|]. split; [exact Sh|]. split; [exact Un|]. split; [congruence|]. split; [lia|]. split; [auto|]. split; [auto|].
        intros U i Hi. rewrite D. cbn [w_obj set_orc]. rewrite Keep, EF.
        destruct (Z.ltb_spec i (Z.min l1 n)) as [A|A].
        + rewrite (proj2 (Z.ltb_lt i (Z.min (o_size (w_obj w2 ob)) n))) by lia. apply Hd2. lia.
        + destruct (Z.ltb_spec i (Z.min (o_size (w_obj w2 ob)) n)) as [B|B]; [|reflexivity].
          exfalso. destruct Hz2 as [Z1|[Z1 Z2]]; [lia|]. specialize (Hl0u U). lia.
      - destruct E as [Op Q]. split; [eapply touched_trans; [exact T2|apply quiet_touched, Q]|].
        rewrite (q_obj _ _ Q). split; [exact Sz2|]. split; [intros _ X; left; exact (Hg2 X)|exact Op]. }
    destruct (op_resize o) as [|n|n|n] eqn:Er; cbn [extent_ok] in Or.
    - unfold sret in H. injection H as <- <-. apply Same. reflexivity.
    - apply (Diff n Or); [reflexivity|eauto|exact H].
    - destruct (Z.ltb_spec l1 n) as [A|A].
      + apply (Diff n Or); [cbn; lia| |exact H]. intros U X. left.
        destruct (op_truncate o); [reflexivity|]. specialize (Hl0u U). unfold l1 in A. lia.
      + unfold sret in H. injection H as <- <-. apply Same. cbn. fold l1. lia.
    - destruct (Z.ltb_spec n l1) as [A|A].
      + apply (Diff n Or); [cbn; fold l1; lia|eauto|exact H].
      + unfold sret in H. injection H as <- <-. apply Same. cbn. fold l1. lia.
  Qed.

  (** ** A successful mmap makes a map *)
  Definition prot_bits (p : protect) : prot :=
    match p with ReadOnly => PR | ReadWrite => PRW | ReadCopy => PRW | ReadExec => PRX end.

  Lemma prot_bits_r p : pr_r (prot_bits p) = true.
  Proof. destruct p; reflexivity. Qed.
  Lemma prot_bits_w p : pr_w (prot_bits p) = prot_writes p.
  Proof. destruct p; reflexivity. Qed.

  Lemma mapped_created w w' base len off o p maxw :
    is_usize t off -> 0 <= len ->
    mapped t w w' base (len + off mod P) o (off / P) (prot_bits p) (prot_shares p) maxw ->
    let m := {| m_ptr := ptr_add t base (off mod P); m_len := len |} in
    m_ptr m = base + off mod P /\ first_page t m = base / P /\ page_count t m = npages t (len + off mod P) /\
    created t w w' m o off p maxw.
  Proof.
    intros Ho Hl M. cbv zeta. pose proof P_pos. pose proof (page_div off) as [D1 D2].
    destruct M as [L R F V _ _]. apply range_ok_iff in R as (R1 & R2 & R3).
    pose proof (npages_bounds t P_pos (len + off mod P)) as NB.
    assert (Ep : ptr_add t base (off mod P) = base + off mod P).
    { unfold ptr_add, as_usize. apply Z.mod_small. lia. }
    rewrite Ep. cbn [m_ptr m_len].
    pose proof (split_addr t P_pos base (off mod P) ltac:(lia) R2) as [A1 A2].
    rewrite Z.mod_mod in A2 by lia. rewrite (Z.div_small (off mod P) P) in A1 by lia.
    assert (Fp : first_page t {| m_ptr := base + off mod P; m_len := len |} = base / P).
    { unfold first_page. cbn [m_ptr]. lia. }
    assert (Pc : page_count t {| m_ptr := base + off mod P; m_len := len |} = npages t (len + off mod P)).
    { unfold page_count. cbn [m_ptr m_len]. rewrite A2. f_equal. lia. }
    split; [reflexivity|]. split; [exact Fp|]. split; [exact Pc|].
    assert (Own : forall q, own_page t {| m_ptr := base + off mod P; m_len := len |} q <->
                            base / P <= q < base / P + npages t (len + off mod P)).
    { intros q. unfold own_page. rewrite Fp, Pc. tauto. }
    assert (Base : P * (base / P) = base).
    { pose proof (Z.div_mod base P ltac:(lia)). lia. }
    split.
    - split; cbn [m_ptr m_len]; rewrite ?Fp, ?Pc, ?A2; try lia.
      + destruct Ho. split; [lia|reflexivity].
      + intros q Hq. apply Own in Hq. exists (entry o (off / P + (q - base / P)) (prot_bits p) (prot_shares p) maxw).
        rewrite V, (in_pages_yes _ _ _ Hq). cbn. rewrite prot_bits_r. repeat split.
    - intros q Hq. apply F, Own, Hq.
    - intros q Hq. rewrite V, in_pages_no; [reflexivity|]. rewrite <- Own. exact Hq.
    - intros q e Hq He. apply Own in Hq. rewrite V, (in_pages_yes _ _ _ Hq) in He. injection He as <-. cbn.
      rewrite prot_bits_w. destruct p; auto.
  Qed.

  Lemma os_map_file_eq fd off len p :
    os_map_file t fd off len p = os_call MapFile (sys_mmap t false 0 len (prot_bits p) (prot_shares p) false fd (as_signed t off)).
  Proof. destruct p; reflexivity. Qed.

  Lemma os_call_inv {A} op (m : ST Z A) w r w' : os_call op m w = (r, w') ->
    match r with
    | Ret a => m w = (Ret a, w')
    | Err e => exists x, m w = (Err x, w') /\ e = last_os_error op x
    | Panic => m w = (Panic, w')
    | Fault => m w = (Fault, w')
    | Blocked => m w = (Blocked, w')
    end.
  Proof. unfold os_call. destruct (m w) as [[a|x| | |] w1]; intros H; injection H as <- <-; eauto. Qed.

  (** The kernel's own bookkeeping and the file contents stay. *)
  Record same_files (w w' : world) : Prop := {
    sf_obj : w_obj w' = w_obj w;
    sf_next : w_next w' = w_next w;
    sf_fd : w_fd w' = w_fd w;
    sf_fs : w_fs w' = w_fs w
  }.

  Lemma map_stage_spec o fd f L w r w' : options_ok t o -> w_fd w fd = Some f -> is_usize t L ->
    map_stage o fd L w = (r, w') ->
    match r with
    | Ret None => w' = w /\ out_of_file (op_len o) (op_offset o) L
    | Ret (Some m) => ~ out_of_file (op_len o) (op_offset o) L /\
        right_len (op_len o) (op_offset o) L (m_len m) /\
        (op_protect o = ReadWrite -> fd_w f = true) /\
        created t w w' m (fd_obj f) (op_offset o) (op_protect o) (negb (prot_shares (op_protect o)) || fd_w f) /\
        same_files w w'
    | Err e => e_op e = MapFile /\ quiet w w' /\ ~ out_of_file (op_len o) (op_offset o) L
    | _ => False
    end.
  Proof.
    intros (_ & Ol & Oo) Hf HL H. unfold map_stage in H. cbv zeta in H. set (off := op_offset o) in *.
    destruct (Z.ltb_spec L off) as [Lt|Ge].
    { injection H as <- <-. split; [reflexivity|]. left. exact Lt. }
    unfold is_usize in HL, Oo. unfold sbind at 1, sout at 1 in H. unfold usub at 1 in H. rewrite wrap_in in H by lia.
    destruct (extent_len (op_len o) (L - off)) as [len|] eqn:El.
    2:{ injection H as <- <-. split; [reflexivity|]. right. unfold extent_len in El.
        destruct (op_len o) as [|n|n|n]; try discriminate El; exists n; destruct (Z.ltb_spec (L - off) n); try discriminate El; (split; [auto|lia]). }
    assert (Len : 0 <= len <= L - off /\ right_len (op_len o) off L len /\ ~ out_of_file (op_len o) off L).
    { unfold extent_len in El. unfold out_of_file, right_len.
      destruct (op_len o) as [|n|n|n]; cbn [extent_ok] in Ol; unfold is_usize in Ol;
        try destruct (Z.ltb_spec (L - off) n); try discriminate El; injection El as <-; (split; [lia|]); (split; [lia|]);
        intros [X|(k & [X|X] & Y)]; try lia; try discriminate X; injection X as <-; lia. }
    destruct Len as (Len & RL & NO).
    pose proof (page_div off) as [D1 D2]. pose proof P_pos.
    unfold size_alloc in H. rewrite alloc_page in H.
    unfold sbind at 1, sout at 1 in H.
    rewrite (size_truncate_eq t bits_pos0 P P_pow2 P_word) in H by (split; lia).
    assert (Dv : 0 <= P * (off / P)). { pose proof (Z.div_pos off P ltac:(lia) ltac:(lia)). nia. }
    unfold sbind at 1, sout at 1 in H. unfold usub at 1 in H. rewrite wrap_in in H by lia.
    replace (off - P * (off / P)) with (off mod P) in H by lia.
    unfold sbind at 1, sout at 1 in H. unfold uadd at 1 in H. rewrite wrap_in in H by lia.
    rewrite os_map_file_eq in H.
    apply sbind_ret in H as [(a & w1 & E & H)|[(e & E & ->)|[(E & ->)|[(E & ->)|(E & ->)]]]]; apply os_call_inv in E;
      try (apply mmap_spec in E; contradiction E).
    - apply mmap_spec in E. destruct E as (S1 & S2 & f' & Ef & Wr & M & Nx & Ob).
      rewrite Hf in Ef. injection Ef as <-.
      assert (Es : as_signed t (P * (off / P)) = P * (off / P)).
      { unfold as_signed in *. destruct (P * (off / P) <? 2 ^ (t_bits t - 1)) eqn:Ea; [reflexivity|lia]. }
      rewrite Es, Z.mul_comm, Z.div_mul in M by lia.
      injection H as <- <-. cbn [m_len].
      split; [exact NO|]. split; [exact RL|]. split.
      { intros Ep. apply Wr. rewrite Ep. reflexivity. }
      assert (U : is_usize t off) by (split; lia).
      destruct (mapped_created w w1 a len off _ _ _ U ltac:(lia) M) as (_ & _ & _ & C).
      split; [exact C|]. split; [exact Ob|exact Nx|exact (mp_fd _ _ _ _ _ _ _ _ _ _ M)|exact (mp_fs _ _ _ _ _ _ _ _ _ _ M)].
    - destruct E as (x & E & ->). apply mmap_spec in E. split; [reflexivity|]. split; [exact E|exact NO].
  Qed.
End Map.
