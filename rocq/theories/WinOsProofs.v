(** The functions of the module [os] on Windows. *)
From Coq Require Import Lia.
From Verif Require Import Base ErrorModel OsModel OsProofs MapModel MapSpec MapProofs SizeProofs MapOps RingMapModel RingMapSpec WinModel WinSpec WinProofs WinCalls
  OsLayerModel OsLayerSpec OsLayerProofs WinOsModel WinOsSpec.

Section WinOs.
  Variable t : target.
  Hypothesis Ht : good_target t.
  Notation P := (t_page t).
  Notation G := (t_alloc t).
  Let HP : 0 < P.
  Proof. exact (pow2_pos _ (proj1 (proj2 Ht))). Qed.

  Lemma wno_value_inv m s r s' : wno_value m s = (r, s') ->
    exists r0, m s = (r0, s') /\ r = match r0 with Ret _ => Ret 0 | Err e => Err e | Panic => Panic | Fault => Fault | Blocked => Blocked end.
  Proof. unfold wno_value, wbind. destruct (m s) as [r0 s0]. intros H. exists r0. destruct r0; injection H as <- <-; auto. Qed.

  (** ** Making views *)
  Definition new_access (p : protect) : access :=
    {| ac_w := prot_writes p; ac_x := prot_execs p; ac_shared := win_shares p; ac_lock := false |}.
  Definition made (s s' : win) (a len : Z) (p : protect) : Prop :=
    a mod P = 0 /\ n_view s a = None /\ n_view s' = put (n_view s) a (Some (npages t len)) /\ 0 < len /\
    (forall q, overlaps t a len q = true -> w_vm (n_w s) q = None) /\
    (forall q, option_map access_of (w_vm (n_w s') q) = if overlaps t a len q then Some (new_access p) else option_map access_of (w_vm (n_w s) q)).
  Lemma viewed_made s0 s s' c off len a p :
    w_vm (n_w s) = w_vm (n_w s0) -> n_view s = n_view s0 ->
    viewed t s s' c (snd (protect_pair p)) off len a -> made s0 s' a len p.
  Proof.
    intros E1 E2 V. pose proof (aligned_page t Ht _ (vw_align _ _ _ _ _ _ _ _ V)) as A. split; [exact A|].
    split; [rewrite <- E2; apply (vw_based _ _ _ _ _ _ _ _ V)|]. split; [rewrite <- E2; apply (vw_view _ _ _ _ _ _ _ _ V)|].
    split; [apply (vw_len _ _ _ _ _ _ _ _ V)|]. split.
    - intros q Q. rewrite <- E1. apply (vw_free _ _ _ _ _ _ _ _ V). apply (overlaps_iff t HP _ _ _ A), Q.
    - intros q. rewrite (vw_vm _ _ _ _ _ _ _ _ V), (overlaps_pages t HP _ _ _ A), E1. destruct (in_pages _ _ _); [|reflexivity].
      cbn. f_equal. unfold access_of, new_access. cbn. destruct p; reflexivity.
  Qed.

  Definition kept (s s' : win) : Prop :=
    (forall q, w_vm (n_w s') q = w_vm (n_w s) q) /\ (forall a, n_view s' a = n_view s a).

  Lemma map_file_made fd off len p s r s' : is_usize t off -> 0 < len -> win_map_file t fd off len p s = (r, s') ->
    match r with Ret a => made s s' a len p | Err _ => kept s s' | _ => False end.
  Proof.
    intros Ho Hl H. pose proof (word_64 t Ht) as H64. unfold is_usize in Ho. assert (Ho' : 0 <= off < 2 ^ 64) by lia.
    unfold win_map_file in H. rewrite (surjective_pairing (protect_pair p)) in H. cbv beta iota zeta in H.
    apply wbind_run in H as [(h & s1 & E1 & H)|[(e & E1 & ->)|[[E1 ->]|[[E1 ->]|[E1 ->]]]]];
      apply win_call_run in E1; [|destruct E1 as (x & E1 & ->)| | |]; apply create_file_spec in E1 as [L1 E1]; try contradiction.
    2:{ split; intros; [rewrite (q_vm _ _ (wq_w _ _ E1))|rewrite (wq_view _ _ E1)]; reflexivity. }
    destruct E1 as (C1 & C2 & f & C3 & C4 & C5 & Q1 & C6 & C7 & C8).
    apply (scoped_view t _ _ _ _ _ _ _ _ Ho') in H as (s2 & -> & H).
    destruct r as [pg|e| | |]; try contradiction.
    - destruct H as (_ & c & _ & V). rewrite (proj2 (Z.eqb_neq len 0)) in V by lia.
      destruct (viewed_made s s1 s2 c off len pg p (q_vm _ _ Q1) C6 V) as (M1 & M2 & M3 & M4 & M5 & M6). repeat split; auto.
    - destruct H as (_ & Q & _). split; intros; cbn; [rewrite (q_vm _ _ (wq_w _ _ Q)), (q_vm _ _ Q1)|rewrite (wq_view _ _ Q), C6]; reflexivity.
  Qed.
  Lemma map_anon_made len p s r s' : is_usize t len -> win_map_anon t len p s = (r, s') ->
    match r with Ret a => made s s' a len p | Err _ => kept s s' | _ => False end.
  Proof.
    intros Hl H. pose proof (word_64 t Ht) as H64. unfold is_usize in Hl. assert (Hl' : 0 <= len < 2 ^ 64) by lia.
    unfold win_map_anon in H. rewrite (surjective_pairing (protect_pair p)) in H. cbv beta iota zeta in H.
    apply wbind_run in H as [(h & s1 & E1 & H)|[(e & E1 & ->)|[[E1 ->]|[[E1 ->]|[E1 ->]]]]];
      apply win_call_run in E1; [|destruct E1 as (x & E1 & ->)| | |]; apply (create_anon_spec t _ _ _ _ _ Hl') in E1 as [L1 E1]; try contradiction.
    2:{ split; intros; [rewrite (q_vm _ _ (wq_w _ _ E1))|rewrite (wq_view _ _ E1)]; reflexivity. }
    destruct E1 as (C1 & C2 & C3 & (c & C4 & C5 & C6 & C7) & C8 & C9 & C10 & C11 & C12 & C13 & C14 & C15 & C16).
    assert (Z0 : 0 <= 0 < 2 ^ 64) by lia.
    apply (scoped_view t _ _ _ _ _ _ _ _ Z0) in H as (s2 & -> & H).
    destruct r as [pg|e| | |]; try contradiction.
    - destruct H as (_ & c' & _ & V). rewrite (proj2 (Z.eqb_neq len 0) C3) in V.
      destruct (viewed_made s s1 s2 c' 0 len pg p C10 C13 V) as (M1 & M2 & M3 & M4 & M5 & M6). repeat split; auto.
    - destruct H as (_ & Q & _). split; intros; cbn; [rewrite (q_vm _ _ (wq_w _ _ Q)), C10|rewrite (wq_view _ _ Q), C13]; reflexivity.
  Qed.

  (** ** The table *)
  Lemma table_ext s s' S S' : (forall q, option_map access_of (w_vm (n_w s') q) = option_map access_of (w_vm (n_w s) q)) ->
    (forall a, n_view s' a = n_view s a) -> (forall q, S' q = S q) -> table t s S -> table t s' S'.
  Proof.
    intros V W E [A B C]. split.
    - intros q. rewrite V, E. apply A.
    - intros b n. rewrite W. intros H. destruct (B b n H) as [B1 B2]. split; [exact B1|]. intros q. rewrite E. apply B2.
    - intros q x b. rewrite W, E. apply C.
  Qed.
  Lemma table_access s s' S S' : (forall a, n_view s' a = n_view s a) ->
    (forall q, option_map wp_base (S' q) = option_map wp_base (S q)) ->
    (forall q, option_map access_of (w_vm (n_w s') q) = option_map wp_access (S' q)) -> table t s S -> table t s' S'.
  Proof.
    intros W E V [A B C].
    assert (X : forall q b, (exists x, S' q = Some x /\ wp_base x = Some b) <-> (exists x, S q = Some x /\ wp_base x = Some b)).
    { intros q b. specialize (E q). destruct (S' q) as [x|], (S q) as [y|]; cbn in E; try discriminate; [|split; intros (z & Y & _); discriminate Y].
      injection E as E. split; intros (z & Y & Z); injection Y as <-; eexists; (split; [reflexivity|congruence]). }
    split.
    - exact V.
    - intros b n. rewrite W. intros H. destruct (B b n H) as [B1 B2]. split; [exact B1|]. intros q. rewrite X. apply B2.
    - intros q x b H1 H2. rewrite W. destruct (proj1 (X q b)) as (y & Y1 & Y2); [eauto|]. exact (C q y b Y1 Y2).
  Qed.

  Lemma overlaps_view a len q : a mod P = 0 -> overlaps t a len q = true <-> a <= P * q < a + P * npages t len.
  Proof.
    intros A. rewrite (overlaps_iff t HP _ _ _ A). pose proof (Z.div_mod a P ltac:(lia)) as D. rewrite A in D. nia.
  Qed.
  Lemma made_table s s' a len p S : made s s' a len p -> table t s S ->
    table t s' (fun q => if overlaps t a len q then Some {| wp_base := Some a; wp_access := new_access p |} else S q).
  Proof.
    intros (A & N & V & L & F & M) [T1 T2 T3].
    assert (SN : forall q, overlaps t a len q = true -> S q = None).
    { intros q Q. specialize (T1 q). rewrite (F q Q) in T1. destruct (S q); [discriminate T1|reflexivity]. }
    split.
    - intros q. rewrite M. destruct (overlaps t a len q); [reflexivity|apply T1].
    - intros b n. rewrite V. unfold put. destruct (Z.eqb_spec b a) as [->|Nb].
      + intros X. injection X as <-. split; [exact A|]. intros q. rewrite <- (overlaps_view _ _ _ A).
        destruct (overlaps t a len q) eqn:Q; [split; [intros _; eexists; split; reflexivity|reflexivity]|].
        split; [discriminate|]. intros (x & X1 & X2). destruct (T3 q x a X1 X2) as (n & X). rewrite N in X. discriminate X.
      + intros X. destruct (T2 b n X) as [B1 B2]. split; [exact B1|]. intros q. rewrite B2.
        destruct (overlaps t a len q) eqn:Q; [|reflexivity]. rewrite (SN q Q).
        split; intros (x & X1 & X2); [discriminate X1|]. injection X1 as <-. cbn in X2. injection X2 as ->. now elim Nb.
    - intros q x b. rewrite V. unfold put. destruct (overlaps t a len q).
      + intros X. injection X as <-. cbn. intros X. injection X as ->. rewrite Z.eqb_refl. eauto.
      + intros X1 X2. destruct (T3 q x b X1 X2) as (n & X). destruct (Z.eqb_spec b a) as [->|]; [rewrite N in X; discriminate X|eauto].
  Qed.

  Lemma changed_overlaps g s s' pg len q : 0 <= pg -> 0 < len -> pages_changed t g s s' pg len ->
    if overlaps t pg len q then exists e, w_vm (n_w s) q = Some e /\ w_vm (n_w s') q = Some (g e) else w_vm (n_w s') q = w_vm (n_w s) q.
  Proof.
    intros Ha Hl H. specialize (H q).
    assert (E : overlaps t pg len q = (pg / P <=? q) && (q <? (pg + len - 1) / P + 1)).
    { unfold overlaps. pose proof (Z.div_mod pg P ltac:(lia)). pose proof (Z.mod_pos_bound pg P HP).
      pose proof (Z.div_mod (pg + len - 1) P ltac:(lia)). pose proof (Z.mod_pos_bound (pg + len - 1) P HP).
      f_equal.
      - destruct (Z.ltb_spec pg (P * (q + 1))), (Z.leb_spec (pg / P) q); try reflexivity; nia.
      - destruct (Z.ltb_spec (P * q) (pg + len)), (Z.ltb_spec q ((pg + len - 1) / P + 1)); try reflexivity; nia. }
    rewrite E. exact H.
  Qed.
  Lemma changed_table g (ga : access -> access) s s' pg len S :
    0 <= pg -> 0 < len -> (forall e, access_of (g e) = ga (access_of e)) ->
    other_state s s' -> pages_changed t g s s' pg len -> table t s S ->
    table t s' (fun q => match S q with
                         | Some x => if overlaps t pg len q then Some {| wp_base := wp_base x; wp_access := ga (wp_access x) |} else S q
                         | None => None
                         end).
  Proof.
    intros Ha Hl Hg (_ & W & _) H T. apply (table_access s s' S); [exact W| | |exact T].
    - intros q. destruct (S q); [destruct (overlaps t pg len q)|]; reflexivity.
    - intros q. pose proof (changed_overlaps g s s' pg len q Ha Hl H) as C. pose proof (tb_page _ _ _ T q) as Tq.
      destruct (overlaps t pg len q).
      + destruct C as (e & C1 & C2). rewrite C1 in Tq. rewrite C2. destruct (S q) as [x|]; [|discriminate Tq].
        cbn in *. injection Tq as Tq. rewrite Hg, Tq. reflexivity.
      + rewrite C, Tq. destruct (S q); reflexivity.
  Qed.

  Lemma same_table s s' S : same_space s s' -> table t s S -> table t s' S.
  Proof. intros [A B _]. apply table_ext; intros; [rewrite A| |]; auto. Qed.

  Lemma wostep_table file c s r s' S : wocall_ok t c -> wostep t file c s = (r, s') -> table t s S ->
    table t s' (fun q => wpage_after t q (S q) (c, r)).
  Proof.
    intros OK H T. destruct c; cbn [wostep wocall_ok] in *.
    - destruct OK as [O1 O2]. apply (map_file_made _ _ _ _ _ _ _ O1 O2) in H. destruct r; try contradiction.
      + exact (made_table _ _ _ _ _ _ H T).
      + destruct H as [H1 H2]. apply (table_ext s s' S); auto. intros q. rewrite H1. reflexivity.
    - apply (map_anon_made _ _ _ _ _ OK) in H. destruct r; try contradiction.
      + exact (made_table _ _ _ _ _ _ H T).
      + destruct H as [H1 H2]. apply (table_ext s s' S); auto. intros q. rewrite H1. reflexivity.
    - apply wno_value_inv in H as (r0 & H & ->). unfold win_unmap in H.
      destruct (unmap_view t pg s) as [r1 s1] eqn:U. apply unmap_view_spec in U as [_ U].
      destruct r1 as [[]|e| | |]; try contradiction; injection H as <- <-; cbn [wpage_after].
      + destruct U as (n & U1 & U2 & U3 & _). destruct T as [T1 T2 T3]. destruct (T2 pg n U1) as [A B].
        assert (IN : forall q, in_pages (pg / P) n q = true <-> exists x, S q = Some x /\ wp_base x = Some pg).
        { intros q. rewrite <- B, in_pages_iff. pose proof (Z.div_mod pg P ltac:(lia)) as D. rewrite A in D. nia. }
        split.
        * intros q. rewrite U3. specialize (IN q). specialize (T1 q). destruct (in_pages (pg / P) n q) eqn:I.
          { destruct (proj1 IN eq_refl) as (x & X1 & X2). rewrite X1, X2, Z.eqb_refl. reflexivity. }
          rewrite T1. destruct (S q) as [x|]; [|reflexivity]. destruct (wp_base x) as [b|] eqn:Eb; [|reflexivity].
          destruct (Z.eqb_spec b pg) as [->|]; [|reflexivity]. discriminate (proj2 IN (ex_intro _ x (conj eq_refl Eb))).
        * intros b m. rewrite U2. unfold put. destruct (Z.eqb_spec b pg) as [->|Nb]; [discriminate|]. intros X.
          destruct (T2 b m X) as [B1 B2]. split; [exact B1|]. intros q. rewrite B2.
          destruct (S q) as [x|]; [|reflexivity]. destruct (wp_base x) as [b'|] eqn:Eb; [|reflexivity].
          destruct (Z.eqb_spec b' pg) as [->|]; [|reflexivity].
          split; intros (y & Y1 & Y2); [|discriminate Y1]. injection Y1 as <-. rewrite Eb in Y2. injection Y2 as ->. now elim Nb.
        * intros q x b X1 X2. rewrite U2. unfold put. destruct (S q) as [y|] eqn:Sq; [|discriminate X1].
          destruct (wp_base y) as [b'|] eqn:Eb.
          -- destruct (Z.eqb_spec b' pg); [discriminate X1|]. injection X1 as <-. rewrite Eb in X2. injection X2 as ->.
             destruct (Z.eqb_spec b pg); [contradiction|]. exact (T3 q y b Sq Eb).
          -- injection X1 as <-. congruence.
      + apply (same_table s); [exact (wq_space _ _ U)|exact T].
    - apply wno_value_inv in H as (r0 & H & ->). apply (win_protect_spec t Ht _ _ _ _ _ _ OK) in H as [O H].
      destruct r0 as [[]|e| | |]; try contradiction; cbn [wpage_after].
      + destruct H as [L H]. refine (changed_table _ (fun x => {| ac_w := prot_writes p; ac_x := prot_execs p; ac_shared := ac_shared x; ac_lock := ac_lock x |}) s s' pg len S OK L _ O H T).
        intros e. unfold access_of. cbn. destruct p; reflexivity.
      + destruct H as [H _]. exact (same_table _ _ _ H T).
    - apply wno_value_inv in H as (r0 & H & ->). apply (win_flush_any t Ht _ _ _ _ _ _ _ OK) in H as [[H _] K].
      replace (fun q => wpage_after t q (S q) _) with S by (destruct r0; reflexivity). exact (same_table _ _ _ H T).
    - apply wno_value_inv in H as (r0 & H & ->). unfold win_advise, wret in H. injection H as <- <-. exact T.
    - apply wno_value_inv in H as (r0 & H & ->). apply (win_lock_spec t Ht _ _ _ _ _ OK) in H as [O H].
      destruct r0 as [[]|e| | |]; try contradiction; cbn [wpage_after].
      + destruct H as [L H]. refine (changed_table _ (fun x => {| ac_w := ac_w x; ac_x := ac_x x; ac_shared := ac_shared x; ac_lock := true |}) s s' pg len S OK L _ O H T). reflexivity.
      + destruct H as [H _]. exact (same_table _ _ _ H T).
    - apply wno_value_inv in H as (r0 & H & ->). apply (win_unlock_spec t Ht _ _ _ _ _ OK) in H as [O H].
      destruct r0 as [[]|e| | |]; try contradiction; cbn [wpage_after].
      + destruct H as [L H]. refine (changed_table _ (fun x => {| ac_w := ac_w x; ac_x := ac_x x; ac_shared := ac_shared x; ac_lock := false |}) s s' pg len S OK L _ O H T). reflexivity.
      + destruct H as [H _]. exact (same_table _ _ _ H T).
    - apply wno_value_inv in H as (r0 & H & ->). destruct (store t addr b (n_w s)) as [r1 w1] eqn:E.
      pose proof (fun q => ostep_page t HP (OStore addr b) (n_w s) (match r1 with Ret _ => Ret 0 | Err e => Err e | Panic => Panic | Fault => Fault | Blocked => Blocked end) w1 q) as K.
      cbn [ostep] in K. unfold no_value, sbind in K. rewrite E in K.
      injection H as <- <-. replace (fun q => wpage_after t q (S q) _) with S by (destruct r1; reflexivity).
      apply (table_ext s _ S); [|reflexivity|reflexivity|exact T]. intros q. cbn [n_w with_w].
      rewrite K by (destruct r1; reflexivity). destruct r1; reflexivity.
  Qed.

  Lemma worun_table h : forall s S, Forall (fun x => wocall_ok t (snd x)) h -> table t s S ->
    table t (snd (worun t h s)) (fun q => fold_left (wpage_after t q) (fst (worun t h s)) (S q)).
  Proof.
    induction h as [|[file c] h IH]; intros s S F T; [exact T|]. apply Forall_cons_iff in F as [F1 F2]. cbn [snd] in F1. cbn [worun].
    destruct (wostep t file c s) as [r s1] eqn:E. pose proof (wostep_table _ _ _ _ _ S F1 E T) as T1.
    specialize (IH s1 _ F2 T1). destruct (worun t h s1) as [l s2]. exact IH.
  Qed.

  (** ** Answers *)
  Lemma wostep_answers file c s r s' : wocall_ok t c -> wostep t file c s = (r, s') ->
    (forall h, n_sec s' h = n_sec s h) /\ (forall fd, w_fd (n_w s') fd = w_fd (n_w s) fd) /\ (forall path, w_fs (n_w s') path = w_fs (n_w s) path) /\
    match r with
    | Ret _ => True
    | Err e => In (e_op e) (woperation_of c) /\ (exists code, raw_os_error e = Some code) /\
               ((forall pg len, c <> OUnmap pg len) -> same_space s s') /\ forall o, o < w_next (n_w s) -> w_obj (n_w s') o = w_obj (n_w s) o
    | Fault => (exists addr b, c = OStore addr b) /\ same_space s s'
    | _ => False
    end.
  Proof.
    assert (NC : forall op x, exists code, raw_os_error (last_os_error op x) = Some code) by (intros; eexists; reflexivity).
    intros OK H. destruct c; cbn [wostep wocall_ok woperation_of] in *.
    - destruct OK as [O1 O2]. apply (win_map_file_spec t Ht _ _ _ _ _ _ _ O1) in H as (l & _ & [R1 R2 R3 R4 R5] & _ & H).
      do 3 (split; [assumption|]). destruct r as [a|e| | |]; try contradiction; [exact Logic.I|]. destruct H as (Sp & op & x & -> & D).
      split; [cbn; destruct D as [[-> _]|[-> _]]; auto|]. split; [apply NC|]. auto.
    - apply (win_map_anon_spec t Ht _ _ _ _ _ OK) in H as (l & _ & [R1 R2 R3 R4 R5] & H).
      do 3 (split; [assumption|]). destruct r as [a|e| | |]; try contradiction; [exact Logic.I|]. destruct H as (Sp & op & x & -> & D).
      split; [cbn; destruct D as [[-> _]|[-> _]]; auto|]. split; [apply NC|]. auto.
    - apply wno_value_inv in H as (r0 & H & ->). unfold win_unmap in H.
      destruct (unmap_view t pg s) as [r1 s1] eqn:U. apply unmap_view_spec in U as [_ U].
      destruct r1 as [[]|e| | |]; try contradiction; injection H as <- <-.
      + destruct U as (n & _ & _ & _ & A & B & C & D & E & F & I). split; [intros; congruence|]. split; [intros; congruence|]. split; [intros; congruence|].
        split; [cbn; auto|]. split; [apply NC|]. split; [intros X; now elim (X pg len)|]. intros; congruence.
      + destruct (wq_same _ _ U) as [_ [R1 R2 R3 R4 R5]]. auto.
    - apply wno_value_inv in H as (r0 & H & ->). apply (win_protect_spec t Ht _ _ _ _ _ _ OK) in H as [(A & B & C & D & E & F & I & J) H].
      do 3 (split; [assumption|]). destruct r0 as [[]|e| | |]; try contradiction; [exact Logic.I|]. destruct H as (Sp & c & ->).
      split; [cbn; auto|]. split; [apply NC|]. split; auto.
    - apply wno_value_inv in H as (r0 & H & ->). apply (win_flush_any t Ht _ _ _ _ _ _ _ OK) in H as [(Sp & A & B & C & D & _) H].
      do 3 (split; [assumption|]). destruct r0 as [[]|e| | |]; try contradiction; [exact Logic.I|]. destruct H as (O & c & ->).
      split; [cbn; auto|]. split; [apply NC|]. split; auto.
    - apply wno_value_inv in H as (r0 & H & ->). unfold win_advise, wret in H. injection H as <- <-. auto.
    - apply wno_value_inv in H as (r0 & H & ->). apply (win_lock_spec t Ht _ _ _ _ _ OK) in H as [(A & B & C & D & E & F & I & J) H].
      do 3 (split; [assumption|]). destruct r0 as [[]|e| | |]; try contradiction; [exact Logic.I|]. destruct H as (Sp & c & ->).
      split; [cbn; auto|]. split; [apply NC|]. split; auto.
    - apply wno_value_inv in H as (r0 & H & ->). apply (win_unlock_spec t Ht _ _ _ _ _ OK) in H as [(A & B & C & D & E & F & I & J) H].
      do 3 (split; [assumption|]). destruct r0 as [[]|e| | |]; try contradiction; [exact Logic.I|]. destruct H as (Sp & c & ->).
      split; [cbn; auto|]. split; [apply NC|]. split; auto.
    - apply wno_value_inv in H as (r0 & H & ->). destruct (store t addr b (n_w s)) as [r1 w1] eqn:E. injection H as <- <-.
      apply store_effect in E as [[-> ->]|(-> & F & N & _)].
      + cbn. split; [reflexivity|]. split; [reflexivity|]. split; [reflexivity|]. split; [eauto|]. split; reflexivity.
      + cbn. split; [reflexivity|]. split; [intros; rewrite F; reflexivity|]. split; [intros; rewrite N; reflexivity|exact Logic.I].
  Qed.
End WinOs.
