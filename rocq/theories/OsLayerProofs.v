(** The functions of the module [os] on POSIX. *)
From Coq Require Import Lia.
From Verif Require Import Base ErrorModel OsModel OsProofs MapModel MapSpec MapOps OsLayerModel OsLayerSpec.

Section OsLayer.
  Variable t : target.
  Hypothesis HP : 0 < t_page t.
  Notation P := (t_page t).

  Lemma overlaps_pages pg len q : pg mod P = 0 -> overlaps t pg len q = in_pages (pg / P) (npages t len) q.
  Proof.
    intros A. pose proof (Z.div_mod pg P ltac:(lia)) as D. rewrite A in D. pose proof (npages_bounds t HP len) as B.
    unfold overlaps, in_pages.
    assert (E1 : (pg <? P * (q + 1)) = (pg / P <=? q)).
    { destruct (Z.ltb_spec pg (P * (q + 1))), (Z.leb_spec (pg / P) q); try reflexivity; nia. }
    rewrite E1. destruct (Z.leb_spec (pg / P) q); [|reflexivity]. cbn [andb].
    destruct (Z.ltb_spec (P * q) (pg + len)), (Z.ltb_spec q (pg / P + npages t len)); try reflexivity; nia.
  Qed.
  Lemma in_pages_iff f n q : in_pages f n q = true <-> f <= q < f + n.
  Proof. unfold in_pages. rewrite andb_true_iff, Z.leb_le, Z.ltb_lt. tauto. Qed.
  Lemma overlaps_iff pg len q : pg mod P = 0 -> overlaps t pg len q = true <-> pg / P <= q < pg / P + npages t len.
  Proof. intros A. rewrite (overlaps_pages _ _ _ A). apply in_pages_iff. Qed.
  Lemma quiet_untouched w w' : quiet w w' -> untouched w w'.
  Proof. intros Q. split; intros; [rewrite (q_vm _ _ Q)|rewrite (q_obj _ _ Q)|rewrite (q_fd _ _ Q)|rewrite (q_fs _ _ Q)]; reflexivity. Qed.

  Lemma os_call_inv {A} op (m : ST Z A) w r w' : os_call op m w = (r, w') ->
    exists r0, m w = (r0, w') /\
      r = match r0 with Ret a => Ret a | Err e => Err (last_os_error op e) | Panic => Panic | Fault => Fault | Blocked => Blocked end.
  Proof. unfold os_call. destruct (m w) as [r0 w0]. intros H. exists r0. destruct r0; injection H as <- <-; auto. Qed.
  Lemma no_value_inv m w r w' : no_value m w = (r, w') ->
    exists r0, m w = (r0, w') /\ r = match r0 with Ret _ => Ret 0 | Err e => Err e | Panic => Panic | Fault => Fault | Blocked => Blocked end.
  Proof. unfold no_value, sbind. destruct (m w) as [r0 w0]. intros H. exists r0. destruct r0; injection H as <- <-; auto. Qed.

  (** ** Mapping *)
  Definition prot_of (p : protect) : prot := match p with ReadOnly => PR | ReadWrite => PRW | ReadCopy => PRW | ReadExec => PRX end.
  Lemma prot_of_w p : pr_w (prot_of p) = prot_writes p. Proof. destruct p; reflexivity. Qed.
  Lemma prot_of_x p : pr_x (prot_of p) = prot_execs p. Proof. destruct p; reflexivity. Qed.
  Lemma prot_of_r p : pr_r (prot_of p) = true. Proof. destruct p; reflexivity. Qed.

  Lemma map_file_eq fd off len p :
    os_map_file t fd off len p = os_call MapFile (sys_mmap t false 0 len (prot_of p) (prot_shares p) false fd (as_signed t off)).
  Proof. destruct p; reflexivity. Qed.
  Lemma map_anon_eq len p : p <> ReadOnly ->
    os_map_anon t len p = os_call MapAnonymous (sys_mmap t false 0 len (prot_of p) (prot_shares p) true (-1) 0).
  Proof. destruct p; intros H; try reflexivity. now elim H. Qed.
  Lemma protect_eq pg len p : os_protect t pg len p = os_call OpProtect (sys_mprotect t pg len (prot_of p)).
  Proof. destruct p; reflexivity. Qed.

  Lemma mapped_access w w' a len o idx p maxw q : mapped t w w' a len o idx (prot_of p) (prot_shares p) maxw ->
    option_map access_of (w_vm w' q) = page_after t q (option_map access_of (w_vm w q)) (OMapAnon len p, Ret a).
  Proof.
    intros M. destruct (proj1 (range_ok_iff t _ _) (mp_range _ _ _ _ _ _ _ _ _ _ M)) as (_ & A & _).
    rewrite (mp_vm _ _ _ _ _ _ _ _ _ _ M q). cbn [page_after]. rewrite (overlaps_pages _ _ _ A).
    destruct (in_pages _ _ _); [|reflexivity]. cbn. unfold access_of. cbn. rewrite prot_of_w, prot_of_x. reflexivity.
  Qed.

  Lemma on_range_access w r w' pg len ok f (g : access -> access) q :
    on_range t pg len ok f w = (r, w') -> (forall e, access_of (f e) = g (access_of e)) ->
    option_map access_of (w_vm w' q) =
      match r with
      | Ret _ => match option_map access_of (w_vm w q) with Some x => if overlaps t pg len q then Some (g x) else Some x | None => None end
      | _ => option_map access_of (w_vm w q)
      end.
  Proof.
    intros H F. apply (on_range_spec t) in H. destruct r as [[]|e| | |]; try contradiction.
    - destruct H as (A & _ & V & _). rewrite V, (overlaps_pages _ _ _ A).
      destruct (w_vm w q) as [e|]; cbn; destruct (in_pages _ _ _); cbn; rewrite ?F; reflexivity.
    - rewrite (q_vm _ _ H). reflexivity.
  Qed.

  Lemma ostep_page c w r w' q : ostep t c w = (r, w') ->
    option_map access_of (w_vm w' q) = page_after t q (option_map access_of (w_vm w q)) (c, r).
  Proof.
    destruct c; cbn [ostep]; intros H.
    - rewrite map_file_eq in H. apply os_call_inv in H as (r0 & H & ->). apply (mmap_spec t) in H.
      destruct r0 as [a|e| | |]; try contradiction.
      + destruct H as (_ & _ & f & _ & _ & M & _). exact (mapped_access _ _ _ _ _ _ _ _ q M).
      + cbn. rewrite (q_vm _ _ H). reflexivity.
    - destruct p eqn:Ep.
      { unfold os_map_anon in H. apply os_call_inv in H as (r0 & H & ->). change true with (prot_shares ReadOnly) in H.
        change PR with (prot_of ReadOnly) in H. apply (mmap_spec t) in H. destruct r0 as [a|e| | |]; try contradiction.
        - destruct H as (_ & _ & f & _ & _ & M & _). exact (mapped_access _ _ _ _ _ _ _ _ q M).
        - cbn. rewrite (q_vm _ _ H). reflexivity. }
      all: rewrite map_anon_eq in H by discriminate; apply os_call_inv in H as (r0 & H & ->); apply (mmap_spec t) in H;
        destruct r0 as [a|e| | |]; try contradiction;
        [destruct H as (_ & _ & M & _); exact (mapped_access _ _ _ _ _ _ _ _ q M)|cbn; rewrite (q_vm _ _ H); reflexivity].
    - apply no_value_inv in H as (r0 & H & ->). apply os_call_inv in H as (r1 & H & ->). apply (munmap_spec t) in H.
      destruct r1 as [[]|e| | |]; try contradiction; cbn.
      + destruct H as (_ & A & V & _). rewrite V, (overlaps_pages _ _ _ A). destruct (in_pages _ _ _); reflexivity.
      + rewrite (q_vm _ _ H). reflexivity.
    - apply no_value_inv in H as (r0 & H & ->). rewrite protect_eq in H. apply os_call_inv in H as (r1 & H & ->).
      apply (on_range_access _ _ _ _ _ _ _
        (fun x => {| ac_w := prot_writes p; ac_x := prot_execs p; ac_shared := ac_shared x; ac_lock := ac_lock x |}) q) in H.
      2:{ intros e. unfold access_of. cbn. rewrite prot_of_w, prot_of_x. reflexivity. }
      rewrite H; destruct r1 as [[]|e| | |]; cbn [page_after]; destruct (option_map access_of (w_vm w q)); reflexivity.
    - apply no_value_inv in H as (r0 & H & ->). apply os_call_inv in H as (r1 & H & ->). apply (msync_spec t) in H.
      destruct r1 as [[]|e| | |]; try contradiction; cbn.
      + destruct H as (_ & _ & V & _). rewrite V. reflexivity.
      + rewrite (q_vm _ _ H). reflexivity.
    - apply no_value_inv in H as (r0 & H & ->). apply os_call_inv in H as (r1 & H & ->).
      apply (on_range_access _ _ _ _ _ _ _ (fun x => x) q) in H.
      2:{ intros e. destruct a; reflexivity. }
      rewrite H. destruct r1 as [[]|e| | |]; cbn; try reflexivity.
      destruct (option_map access_of (w_vm w q)); [destruct (overlaps _ _ _ _)|]; reflexivity.
    - apply no_value_inv in H as (r0 & H & ->). apply os_call_inv in H as (r1 & H & ->).
      apply (on_range_access _ _ _ _ _ _ _ (fun x => {| ac_w := ac_w x; ac_x := ac_x x; ac_shared := ac_shared x; ac_lock := true |}) q) in H.
      2:{ intros e. reflexivity. }
      rewrite H; destruct r1 as [[]|e| | |]; cbn [page_after]; destruct (option_map access_of (w_vm w q)); reflexivity.
    - apply no_value_inv in H as (r0 & H & ->). apply os_call_inv in H as (r1 & H & ->).
      apply (on_range_access _ _ _ _ _ _ _ (fun x => {| ac_w := ac_w x; ac_x := ac_x x; ac_shared := ac_shared x; ac_lock := false |}) q) in H.
      2:{ intros e. reflexivity. }
      rewrite H; destruct r1 as [[]|e| | |]; cbn [page_after]; destruct (option_map access_of (w_vm w q)); reflexivity.
    - apply no_value_inv in H as (r0 & H & ->). replace (page_after _ _ _ _) with (option_map access_of (w_vm w q)) by (destruct r0; reflexivity).
      unfold store in H. destruct (w_vm w (addr / P)) as [e|] eqn:Ev; [|injection H as <- <-; reflexivity].
      destruct (negb (p_w e)); [injection H as <- <-; reflexivity|]. cbv zeta in H.
      destruct (o_size _ <=? _); [injection H as <- <-; reflexivity|].
      destruct (p_shared e); [destruct (_ <? _) in H; injection H as <- <-; reflexivity|].
      injection H as <- <-. cbn. unfold put. destruct (Z.eqb_spec q (addr / P)) as [->|]; [|reflexivity].
      rewrite Ev. reflexivity.
  Qed.

  Lemma orun_page h : forall w q, option_map access_of (w_vm (snd (orun t h w)) q) =
    fold_left (page_after t q) (fst (orun t h w)) (option_map access_of (w_vm w q)).
  Proof.
    induction h as [|c h IH]; intros w q; [reflexivity|]. cbn [orun].
    destruct (ostep t c w) as [r w1] eqn:E. specialize (IH w1 q). destruct (orun t h w1) as [l w2] eqn:E2.
    cbn [fst snd fold_left] in *. rewrite IH, (ostep_page _ _ _ _ q E). reflexivity.
  Qed.

  (** ** Errors *)
  Lemma ostep_answers c w r w' : ostep t c w = (r, w') ->
    match r with
    | Ret _ => True
    | Err e => untouched w w' /\ operation_of c = Some (e_op e) /\ exists code, raw_os_error e = Some code
    | Fault => (exists addr b, c = OStore addr b) /\ untouched w w'
    | _ => False
    end.
  Proof.
    assert (OC : forall A op (m : ST Z A) r0, (forall r1 v', m w = (r1, v') -> match r1 with Ret _ => True | Err _ => quiet w v' | _ => False end) ->
      os_call op m w = (r0, w') ->
      match r0 with Ret _ => True | Err e => untouched w w' /\ e_op e = op /\ exists code, raw_os_error e = Some code | _ => False end).
    { intros A op m r0 S H. apply os_call_inv in H as (r1 & H & ->). apply S in H. destruct r1; auto.
      split; [apply quiet_untouched, H|]. split; [reflexivity|]. eexists. reflexivity. }
    assert (OR : forall pg len ok f r1 v', on_range t pg len ok f w = (r1, v') -> match r1 with Ret _ => True | Err _ => quiet w v' | _ => False end).
    { intros pg len ok f r1 v' H. apply (on_range_spec t) in H. destruct r1; auto. }
    assert (NV : forall m r0, no_value m w = (r0, w') -> exists r1, m w = (r1, w') /\
      r0 = match r1 with Ret _ => Ret 0 | Err e => Err e | Panic => Panic | Fault => Fault | Blocked => Blocked end) by (intros; apply no_value_inv; assumption).
    assert (MM : forall addr len pr sh anon fd off r1 v', sys_mmap t false addr len pr sh anon fd off w = (r1, v') ->
      match r1 with Ret _ => True | Err _ => quiet w v' | _ => False end).
    { intros. pose proof (mmap_spec t _ _ _ _ _ _ _ _ _ _ H) as X. destruct r1; auto. }
    destruct c; cbn [ostep operation_of]; intros H.
    - rewrite map_file_eq in H. eapply OC in H; [|apply MM]. destruct r; try contradiction; auto. destruct H as (A & <- & B). auto.
    - destruct p; eapply OC in H; try apply MM; destruct r; try contradiction; auto; destruct H as (A & <- & B); auto.
    - apply NV in H as (r1 & H & ->). eapply OC in H.
      2:{ intros r2 v' X. apply (munmap_spec t) in X. destruct r2; auto. }
      destruct r1; try contradiction; auto. destruct H as (A & <- & B); auto.
    - apply NV in H as (r1 & H & ->). rewrite protect_eq in H. eapply OC in H; [|apply OR].
      destruct r1; try contradiction; auto. destruct H as (A & <- & B); auto.
    - apply NV in H as (r1 & H & ->). eapply OC in H.
      2:{ intros r2 v' X. apply (msync_spec t) in X. destruct r2; auto. }
      destruct r1; try contradiction; auto. destruct H as (A & <- & B); auto.
    - apply NV in H as (r1 & H & ->). eapply OC in H; [|apply OR].
      destruct r1; try contradiction; auto. destruct H as (A & <- & B); auto.
    - apply NV in H as (r1 & H & ->). eapply OC in H; [|apply OR].
      destruct r1; try contradiction; auto. destruct H as (A & <- & B); auto.
    - apply NV in H as (r1 & H & ->). eapply OC in H; [|apply OR].
      destruct r1; try contradiction; auto. destruct H as (A & <- & B); auto.
    - apply NV in H as (r1 & H & ->). apply store_effect in H as [[-> ->]|[-> _]]; [|exact Logic.I].
      split; [eauto|]. apply quiet_untouched, quiet_refl.
  Qed.

  (** ** The bytes *)
  Lemma page_of_byte a i : a mod P = 0 -> 0 <= i -> (a + i) / P = a / P + i / P /\ (a + i) mod P = i mod P.
  Proof.
    intros A Hi. pose proof (Z.div_mod a P ltac:(lia)) as D. rewrite A, Z.add_0_r in D.
    split.
    - rewrite D at 1. rewrite Z.add_comm, Z.mul_comm, Z.div_add by lia. lia.
    - rewrite <- Z.add_mod_idemp_l, A by lia. reflexivity.
  Qed.
  Lemma mapped_byte w w' a len o idx p maxw i {E} : mapped t w w' a len o idx (prot_of p) (prot_shares p) maxw -> 0 <= i < len ->
    load (E:=E) t w' (a + i) =
      if o_size (w_obj w' o) <=? P * (idx + i / P) then Fault else Ret (o_data (w_obj w' o) (P * idx + i)).
  Proof.
    intros M Hi. destruct (proj1 (range_ok_iff t _ _) (mp_range _ _ _ _ _ _ _ _ _ _ M)) as (_ & A & _).
    destruct (page_of_byte a i A ltac:(lia)) as [Ed Em]. unfold load. rewrite Ed, (mp_vm _ _ _ _ _ _ _ _ _ _ M), Em.
    assert (I : in_pages (a / P) (npages t len) (a / P + i / P) = true).
    { apply in_pages_iff. pose proof (npages_bounds t HP len). pose proof (Z.div_mod i P ltac:(lia)). pose proof (Z.mod_pos_bound i P HP).
      pose proof (Z.div_pos i P ltac:(lia) HP). split; [lia|]. nia. }
    rewrite I. cbn. rewrite prot_of_r. cbn. replace (a / P + i / P - a / P) with (i / P) by lia.
    destruct (_ <=? _); [reflexivity|]. unfold page_byte. cbn. do 2 f_equal.
    pose proof (Z.div_mod i P ltac:(lia)). lia.
  Qed.

  Lemma map_file_spec fd off len p w a w' : is_usize t off -> os_map_file t fd off len p w = (Ret a, w') ->
    exists f, w_fd w fd = Some f /\ (p = ReadWrite -> fd_w f = true) /\
      P <= a /\ a mod P = 0 /\ a + len <= 2 ^ t_bits t /\ off mod P = 0 /\ 0 < len /\
      (forall q, overlaps t a len q = true -> w_vm w q = None) /\
      (forall q, overlaps t a len q = false -> w_vm w' q = w_vm w q) /\
      (forall o, w_obj w' o = w_obj w o) /\ (forall x, w_fd w' x = w_fd w x) /\ (forall x, w_fs w' x = w_fs w x) /\
      forall i, 0 <= i < len -> load (E:=error) t w' (a + i) =
        if o_size (w_obj w (fd_obj f)) <=? P * ((off + i) / P) then Fault else Ret (o_data (w_obj w (fd_obj f)) (off + i)).
  Proof.
    intros Ho H. rewrite map_file_eq in H. apply os_call_inv in H as (r0 & H & X). destruct r0; try discriminate. injection X as <-.
    apply (mmap_spec t) in H. destruct H as (So & Sm & f & Hf & Hw & M & _ & Eo).
    assert (S : as_signed t off = off).
    { unfold as_signed, is_usize in *. destruct (Z.ltb_spec off (2 ^ (t_bits t - 1))); [reflexivity|]. lia. }
    rewrite S in *. destruct (proj1 (range_ok_iff t _ _) (mp_range _ _ _ _ _ _ _ _ _ _ M)) as (R1 & A & R2).
    pose proof (npages_bounds t HP len). exists f. split; [exact Hf|]. split.
    { intros ->. apply Hw. reflexivity. }
    split; [exact R1|]. split; [exact A|]. split; [lia|]. split; [exact Sm|]. split; [exact (mp_len _ _ _ _ _ _ _ _ _ _ M)|].
    split. { intros q Q. apply (overlaps_iff _ _ _ A) in Q. exact (mp_free _ _ _ _ _ _ _ _ _ _ M q Q). }
    split. { intros q Q. rewrite (mp_vm _ _ _ _ _ _ _ _ _ _ M). rewrite (overlaps_pages _ _ _ A) in Q. rewrite Q. reflexivity. }
    split; [intros o; rewrite Eo; reflexivity|]. split; [intros x; rewrite (mp_fd _ _ _ _ _ _ _ _ _ _ M); reflexivity|].
    split; [intros x; rewrite (mp_fs _ _ _ _ _ _ _ _ _ _ M); reflexivity|].
    intros i Hi. rewrite (mapped_byte _ _ _ _ _ _ _ _ i M Hi), Eo.
    destruct (page_of_byte off i Sm ltac:(lia)) as [Ed _]. rewrite Ed.
    pose proof (Z.div_mod off P ltac:(lia)) as D. rewrite Sm, Z.add_0_r in D. rewrite <- D. reflexivity.
  Qed.

  Lemma map_anon_spec len p w a w' : wf w -> os_map_anon t len p w = (Ret a, w') ->
    p <> ReadOnly /\ P <= a /\ a mod P = 0 /\ a + len <= 2 ^ t_bits t /\ 0 < len /\
      (forall q, overlaps t a len q = true -> w_vm w q = None) /\
      (forall q, overlaps t a len q = false -> w_vm w' q = w_vm w q) /\
      (forall o, o < w_next w -> w_obj w' o = w_obj w o) /\ (forall x, w_fd w' x = w_fd w x) /\ (forall x, w_fs w' x = w_fs w x) /\
      (forall q, overlaps t a len q = true -> exists e, w_vm w' q = Some e /\ p_obj e = w_next w) /\
      forall i, 0 <= i < len -> load (E:=error) t w' (a + i) = Ret 0.
  Proof.
    intros W H. assert (N : p <> ReadOnly).
    { intros ->. unfold os_map_anon in H. apply os_call_inv in H as (r0 & H & X). destruct r0; try discriminate.
      apply (mmap_spec t) in H. destruct H as (_ & _ & f & Hf & _). apply (wf_fd _ W) in Hf. lia. }
    split; [exact N|]. rewrite (map_anon_eq _ _ N) in H. apply os_call_inv in H as (r0 & H & X). destruct r0; try discriminate. injection X as <-.
    apply (mmap_spec t) in H. destruct H as (_ & _ & M & _ & Eo).
    destruct (proj1 (range_ok_iff t _ _) (mp_range _ _ _ _ _ _ _ _ _ _ M)) as (R1 & A & R2).
    pose proof (npages_bounds t HP len) as B.
    split; [exact R1|]. split; [exact A|]. split; [lia|]. split; [exact (mp_len _ _ _ _ _ _ _ _ _ _ M)|].
    split. { intros q Q. apply (overlaps_iff _ _ _ A) in Q. exact (mp_free _ _ _ _ _ _ _ _ _ _ M q Q). }
    split. { intros q Q. rewrite (mp_vm _ _ _ _ _ _ _ _ _ _ M). rewrite (overlaps_pages _ _ _ A) in Q. rewrite Q. reflexivity. }
    split. { intros o O. rewrite Eo. unfold put. destruct (Z.eqb_spec o (w_next w)); [lia|reflexivity]. }
    split; [intros x; rewrite (mp_fd _ _ _ _ _ _ _ _ _ _ M); reflexivity|].
    split; [intros x; rewrite (mp_fs _ _ _ _ _ _ _ _ _ _ M); reflexivity|].
    split. { intros q Q. rewrite (mp_vm _ _ _ _ _ _ _ _ _ _ M). rewrite (overlaps_pages _ _ _ A) in Q. rewrite Q. eexists. split; reflexivity. }
    intros i Hi. rewrite (mapped_byte _ _ _ _ _ _ _ _ i M Hi), Eo. unfold put. rewrite Z.eqb_refl. cbn [o_size o_data].
    rewrite Z.div_0_l by lia. destruct (Z.leb_spec (P * npages t len) (P * (0 + i / P))); [|reflexivity].
    pose proof (Z.div_mod i P ltac:(lia)). pose proof (Z.mod_pos_bound i P HP). nia.
  Qed.

  (** ** When a change of protection is granted *)
  Lemma protect_iff pg len p w a o : w_orc w = Grant a :: o ->
    (exists w', os_protect t pg len p w = (Ret tt, w')) <->
    pg mod P = 0 /\ forall q, overlaps t pg len q = true ->
      exists e, w_vm w q = Some e /\ (prot_writes p = true -> p_maxw e = true).
  Proof.
    intros Ho. rewrite protect_eq. split.
    - intros (w' & H). apply os_call_inv in H as (r0 & H & X). destruct r0 as [[]|e| | |]; try discriminate.
      apply (on_range_spec t) in H. destruct H as (A & V & _). split; [exact A|]. intros q Q.
      apply (overlaps_iff _ _ _ A) in Q. destruct (V q Q) as (e & E & K). exists e. split; [exact E|].
      intros Wr. rewrite prot_of_w, Wr in K. destruct (p_maxw e); [reflexivity|discriminate K].
    - intros [A V]. unfold os_call, sys_mprotect.
      destruct (on_range_grant t pg len (fun e => if pr_w (prot_of p) && negb (p_maxw e) then Err EACCES else Ret tt) (set_prot (prot_of p)) w a o Ho A) as (w' & E).
      { intros q Q. apply (overlaps_iff _ _ _ A) in Q. destruct (V q Q) as (e & E & K). exists e. split; [exact E|].
        rewrite prot_of_w. destruct (prot_writes p); [rewrite (K eq_refl)|]; reflexivity. }
      rewrite E. eauto.
  Qed.

  (** ** Flushing *)
  Lemma flush_spec pg len m w w' : os_flush t pg len m w = (Ret tt, w') ->
    (forall q, w_vm w' q = w_vm w q) /\ (forall x, w_fd w' x = w_fd w x) /\ (forall x, w_fs w' x = w_fs w x) /\
    (forall o, o_size (w_obj w' o) = o_size (w_obj w o) /\ forall i, o_data (w_obj w' o) i = o_data (w_obj w o) i) /\
    forall o i, o_disk (w_obj w' o) i = o_data (w_obj w o) i \/ o_disk (w_obj w' o) i = o_disk (w_obj w o) i /\
      ~ (m = FlushSync /\ exists q e, overlaps t pg len q = true /\ w_vm w q = Some e /\ p_shared e = true /\ p_obj e = o /\
         P * p_idx e <= i < P * (p_idx e + 1)).
  Proof.
    intros H. apply os_call_inv in H as (r0 & H & X). destruct r0 as [[]|e| | |]; try discriminate.
    apply (msync_spec t) in H. destruct H as (A & _ & V & _ & Fd & Fs & O).
    split; [intros; rewrite V; reflexivity|]. split; [intros; rewrite Fd; reflexivity|]. split; [intros; rewrite Fs; reflexivity|].
    split. { intros o. destruct (O o) as (O1 & O2 & _). split; [exact O1|]. intros i. rewrite O2. reflexivity. }
    intros o i. destruct (O o) as (_ & _ & D). specialize (D i).
    destruct (syncs t w (pg / P) (npages t len) o i) eqn:Es.
    - destruct m; cbn [andb] in D; [left; exact D|]. right. split; [exact D|]. intros [Y _]. discriminate Y.
    - rewrite andb_false_r in D. right. split; [exact D|]. intros (_ & q & e & Q & E & S1 & S2 & S3).
      apply (overlaps_iff _ _ _ A) in Q. assert (T : syncs t w (pg / P) (npages t len) o i = true).
      { apply (syncs_iff t). exists q, e. repeat split; try tauto. apply Z.div_unique with (i - P * p_idx e); lia. }
      congruence.
  Qed.
  (** What is written back was in the range. *)
  Lemma flush_only pg len m w w' o i : os_flush t pg len m w = (Ret tt, w') -> o_disk (w_obj w' o) i <> o_disk (w_obj w o) i ->
    m = FlushSync /\ exists q e, overlaps t pg len q = true /\ w_vm w q = Some e /\ p_shared e = true /\ p_obj e = o /\
      P * p_idx e <= i < P * (p_idx e + 1).
  Proof.
    intros H N. apply os_call_inv in H as (r0 & H & X). destruct r0 as [[]|e| | |]; try discriminate.
    apply (msync_spec t) in H. destruct H as (A & _ & V & _ & Fd & Fs & O). destruct (O o) as (_ & _ & D). specialize (D i).
    destruct m; cbn [andb] in D; [|contradiction]. split; [reflexivity|].
    destruct (syncs t w (pg / P) (npages t len) o i) eqn:Es; [|contradiction].
    apply (syncs_iff t) in Es. destruct Es as (q & e & Q & E & S1 & S2 & S3). exists q, e.
    split; [apply (overlaps_iff _ _ _ A), Q|]. repeat split; try assumption; rewrite S3; pose proof (Z.div_mod i P ltac:(lia)); pose proof (Z.mod_pos_bound i P HP); lia.
  Qed.

  (** ** The calls that keep the bytes *)
  Lemma load_ext {E} w w' x :
    option_map (fun e => (p_obj e, p_idx e, p_copy e, p_r e)) (w_vm w' (x / P)) = option_map (fun e => (p_obj e, p_idx e, p_copy e, p_r e)) (w_vm w (x / P)) ->
    (forall o, o_size (w_obj w' o) = o_size (w_obj w o)) -> (forall o i, o_data (w_obj w' o) i = o_data (w_obj w o) i) ->
    load (E:=E) t w' x = load t w x.
  Proof.
    intros V S D. unfold load. destruct (w_vm w' (x / P)) as [e'|], (w_vm w (x / P)) as [e|]; try discriminate; [|reflexivity].
    cbn in V. injection V as V1 V2 V3 V4. rewrite V1, V2, V4, S. unfold page_byte. rewrite V1, V2, V3.
    destruct (p_copy e); rewrite ?D; reflexivity.
  Qed.
  Definition readable (w : world) (x : Z) : Prop := forall e, w_vm w (x / P) = Some e -> p_r e = true.
  Lemma on_range_bytes {E} pg len ok f w r w' x : readable w x -> on_range t pg len ok f w = (r, w') ->
    (forall e, p_r e = true -> (p_obj (f e), p_idx (f e), p_copy (f e), p_r (f e)) = (p_obj e, p_idx e, p_copy e, p_r e)) ->
    load (E:=E) t w' x = load t w x.
  Proof.
    intros R H F. apply (on_range_spec t) in H. destruct r as [[]|e| | |]; try contradiction.
    - destruct H as (_ & _ & V & O & _). apply load_ext; [|intros; rewrite O; reflexivity|intros; rewrite O; reflexivity].
      rewrite V. destruct (w_vm w (x / P)) as [e|] eqn:Ev; destruct (in_pages _ _ _); cbn; try reflexivity.
      rewrite (F e (R _ Ev)). reflexivity.
    - apply load_ext; intros; rewrite ?(q_vm _ _ H), ?(q_obj _ _ H); reflexivity.
  Qed.
  Lemma keeps_bytes_load c w r w' x : readable w x -> keeps_bytes c = true -> ostep t c w = (r, w') ->
    load (E:=error) t w' x = load t w x.
  Proof.
    intros R K H. destruct c; try discriminate K; cbn [ostep] in H; apply no_value_inv in H as (r0 & H & ->).
    - rewrite protect_eq in H. apply os_call_inv in H as (r1 & H & ->). eapply on_range_bytes; [exact R|exact H|].
      intros e Er. cbn. rewrite prot_of_r, Er. reflexivity.
    - apply os_call_inv in H as (r1 & H & ->). apply (msync_spec t) in H. destruct r1 as [[]|e| | |]; try contradiction.
      + destruct H as (_ & _ & V & _ & _ & _ & O). apply load_ext; intros; rewrite ?V; try reflexivity; destruct (O o) as (O1 & O2 & _); rewrite ?O1, ?O2; reflexivity.
      + apply load_ext; intros; rewrite ?(q_vm _ _ H), ?(q_obj _ _ H); reflexivity.
    - apply os_call_inv in H as (r1 & H & ->). eapply on_range_bytes; [exact R|exact H|].
      intros e Er. destruct a; try discriminate K; reflexivity.
    - apply os_call_inv in H as (r1 & H & ->). eapply on_range_bytes; [exact R|exact H|]. reflexivity.
    - apply os_call_inv in H as (r1 & H & ->). eapply on_range_bytes; [exact R|exact H|]. reflexivity.
  Qed.
  Lemma load_readable {E} w x b : load (E:=E) t w x = Ret b -> readable w x.
  Proof. unfold load, readable. intros H e Ev. rewrite Ev in H. destruct (p_r e); [reflexivity|discriminate H]. Qed.
  (** [WillNotNeed] shows the file or the zeros again. *)
  Lemma will_not_need_spec pg len w w' : os_advise t pg len AdvWillNotNeed w = (Ret tt, w') ->
    (forall o, w_obj w' o = w_obj w o) /\
    (forall x, overlaps t pg len (x / P) = false -> load (E:=error) t w' x = load t w x) /\
    (forall q e, overlaps t pg len q = true -> w_vm w q = Some e -> p_lock e = false) /\
    forall x e, overlaps t pg len (x / P) = true -> w_vm w (x / P) = Some e -> p_r e = true ->
      load (E:=error) t w' x = if o_size (w_obj w (p_obj e)) <=? P * p_idx e then Fault
                               else Ret (o_data (w_obj w (p_obj e)) (P * p_idx e + x mod P)).
  Proof.
    intros H. apply os_call_inv in H as (r0 & H & X). destruct r0 as [[]|e| | |]; try discriminate.
    apply (on_range_spec t) in H. destruct H as (A & K & V & O & _). split; [intros; rewrite O; reflexivity|].
    split. { intros x Q. rewrite (overlaps_pages _ _ _ A) in Q. apply load_ext; intros; rewrite ?V, ?Q, ?O; reflexivity. }
    split. { intros q e Q E. apply (overlaps_iff _ _ _ A) in Q. destruct (K q Q) as (e1 & E1 & L). rewrite E in E1. injection E1 as <-.
      cbn in L. destruct (p_lock e); [discriminate L|reflexivity]. }
    intros x e Q E R. unfold load. rewrite V. rewrite (overlaps_pages _ _ _ A) in Q. rewrite Q, E. cbn. rewrite R. cbn.
    rewrite O. destruct (_ <=? _); reflexivity.
  Qed.

  (** ** Mapping and unmapping again *)
  Lemma map_unmap c w a w1 r w2 len q :
    (exists fd off p, c = OMapFile fd off len p) \/ (exists p, c = OMapAnon len p) ->
    ostep t c w = (Ret a, w1) -> ostep t (OUnmap a len) w1 = (Ret r, w2) -> w_vm w2 q = w_vm w q.
  Proof.
    intros C H U.
    assert (M : exists o idx pr sh mw, mapped t w w1 a len o idx pr sh mw).
    { destruct C as [(fd & off & p & ->)|(p & ->)]; cbn [ostep] in H.
      - rewrite map_file_eq in H. apply os_call_inv in H as (r0 & H & X). destruct r0; try discriminate. injection X as <-.
        apply (mmap_spec t) in H. destruct H as (_ & _ & f & _ & _ & M & _). eauto 6.
      - destruct p; apply os_call_inv in H as (r0 & H & X); destruct r0; try discriminate; injection X as <-; apply (mmap_spec t) in H.
        + destruct H as (_ & _ & f & _ & _ & M & _). eauto 6.
        + destruct H as (_ & _ & M & _). eauto 6.
        + destruct H as (_ & _ & M & _). eauto 6.
        + destruct H as (_ & _ & M & _). eauto 6. }
    destruct M as (o & idx & pr & sh & mw & M). cbn [ostep] in U. apply no_value_inv in U as (r0 & U & X). destruct r0 as [[]|e| | |]; try discriminate.
    apply os_call_inv in U as (r1 & U & Y). destruct r1 as [[]|e| | |]; try discriminate. apply (munmap_spec t) in U. destruct U as (_ & _ & V & _).
    rewrite V, (mp_vm _ _ _ _ _ _ _ _ _ _ M). destruct (in_pages (a / P) (npages t len) q) eqn:I; [|reflexivity].
    apply in_pages_iff in I. symmetry. exact (mp_free _ _ _ _ _ _ _ _ _ _ M q I).
  Qed.
  (** ** When the calls are granted *)
  Lemma last_page a len : 0 < len -> a mod P = 0 -> overlaps t a len (a / P + npages t len - 1) = true.
  Proof. intros L A. apply (overlaps_iff _ _ _ A). pose proof (npages_pos t HP len L). lia. Qed.
  Lemma place_iff w a len o : place t w a len <->
    (len <=? 0) = false /\ range_ok t a len = true /\ free_range (set_orc w o) (a / P) (npages t len) = true.
  Proof.
    unfold place. rewrite Z.leb_gt, range_ok_iff, free_range_iff. cbn [w_vm set_orc]. split.
    - intros (L & R & A & V). split; [exact L|]. split.
      + split; [exact R|]. split; [exact A|]. destruct (V _ (last_page a len L A)) as [_ B].
        pose proof (Z.div_mod a P ltac:(lia)). lia.
      + intros q Q. apply (V q). apply (overlaps_iff _ _ _ A), Q.
    - intros (L & (R & A & B) & F). split; [exact L|]. split; [exact R|]. split; [exact A|]. intros q Q.
      apply (overlaps_iff _ _ _ A) in Q. split; [exact (F q Q)|]. pose proof (Z.div_mod a P ltac:(lia)). nia.
  Qed.
  Lemma mmap_iff len pr shared anon fd off w a o : w_orc w = Grant a :: o ->
    (exists x w', sys_mmap t false 0 len pr shared anon fd off w = (Ret x, w')) <->
    place t w a len /\ 0 <= off /\ off mod P = 0 /\
    (anon = true \/ exists f, w_fd w fd = Some f /\ (shared && pr_w pr = true -> fd_w f = true)).
  Proof.
    intros Ho. rewrite (place_iff w a len o). unfold sys_mmap, ask. rewrite Ho.
    destruct (len <=? 0) eqn:El.
    { split; [intros (x & w' & H); discriminate H|intros ((X & _) & _); discriminate X]. }
    destruct ((off <? 0) || negb (off mod P =? 0)) eqn:Eo.
    { split; [intros (x & w' & H); discriminate H|intros (_ & X & Y & _)].
      apply orb_true_iff in Eo as [Eo|Eo]; [apply Z.ltb_lt in Eo; lia|]. rewrite Y in Eo. discriminate Eo. }
    apply orb_false_elim in Eo as [Eo1 Eo2]. apply Z.ltb_ge in Eo1. apply negb_false_iff, Z.eqb_eq in Eo2. cbv zeta.
    destruct (range_ok t a len) eqn:Er; cbn [negb].
    2:{ split; [intros (x & w' & H); discriminate H|intros ((_ & X & _) & _); discriminate X]. }
    change (negb false) with true. cbn [andb].
    destruct (free_range (set_orc w o) (a / P) (npages t len)) eqn:Ef; cbn [negb].
    2:{ split; [intros (x & w' & H); discriminate H|intros ((_ & _ & X) & _); discriminate X]. }
    unfold backing. destruct anon.
    { split; [intros _; auto|intros _; eexists; eexists; reflexivity]. }
    cbn [w_fd set_orc]. destruct (w_fd w fd) as [f|] eqn:Efd.
    2:{ split; [intros (x & w' & H); discriminate H|intros (_ & _ & _ & [X|(f & X & _)]); discriminate X]. }
    destruct (shared && pr_w pr && negb (fd_w f)) eqn:Ew.
    - split; [intros (x & w' & H); discriminate H|intros (_ & _ & _ & [X|(f' & X & K)]); [discriminate X|]].
      injection X as <-. apply andb_prop in Ew as [Ew1 Ew2]. rewrite (K Ew1) in Ew2. discriminate Ew2.
    - split; [intros _|intros _; eexists; eexists; reflexivity]. split; [auto|]. split; [exact Eo1|]. split; [exact Eo2|].
      right. exists f. split; [reflexivity|]. intros S. rewrite S in Ew. cbn in Ew. apply negb_false_iff, Ew.
  Qed.
  Lemma os_call_ret {A} op (m : ST Z A) w : (exists x w', os_call op m w = (Ret x, w')) <-> (exists x w', m w = (Ret x, w')).
  Proof.
    split; intros (x & w' & H).
    - apply os_call_inv in H as (r0 & H & X). destruct r0; try discriminate. eauto.
    - unfold os_call. rewrite H. eauto.
  Qed.
  Lemma map_file_iff fd off len p w a o : is_usize t off -> w_orc w = Grant a :: o ->
    (exists x w', os_map_file t fd off len p w = (Ret x, w')) <->
    place t w a len /\ off < 2 ^ (t_bits t - 1) /\ off mod P = 0 /\
    exists f, w_fd w fd = Some f /\ (p = ReadWrite -> fd_w f = true).
  Proof.
    intros U Ho. rewrite map_file_eq, os_call_ret, (mmap_iff _ _ _ _ _ _ _ _ _ Ho). unfold as_signed, is_usize in *.
    assert (K : forall f, (prot_shares p && pr_w (prot_of p) = true -> fd_w f = true) <-> (p = ReadWrite -> fd_w f = true)).
    { intros f. destruct p; cbn; split; intros H; auto; intros X; discriminate X. }
    split.
    - intros (Pl & S1 & S2 & [X|(f & F & Kf)]); [discriminate X|].
      destruct (Z.ltb_spec off (2 ^ (t_bits t - 1))); [|lia]. split; [exact Pl|]. split; [assumption|]. split; [exact S2|].
      exists f. split; [exact F|]. apply K, Kf.
    - intros (Pl & S1 & S2 & f & F & Kf). apply Z.ltb_lt in S1. rewrite S1. split; [exact Pl|]. split; [lia|]. split; [exact S2|].
      right. exists f. split; [exact F|]. apply K, Kf.
  Qed.
  Lemma map_anon_iff len p w a o : wf w -> w_orc w = Grant a :: o ->
    (exists x w', os_map_anon t len p w = (Ret x, w')) <-> p <> ReadOnly /\ place t w a len.
  Proof.
    intros W Ho. split.
    - intros (x & w' & H). destruct (map_anon_spec _ _ _ _ _ W H) as (N & _). split; [exact N|].
      rewrite (map_anon_eq _ _ N) in H. apply (mmap_iff _ (prot_of p) (prot_shares p) true (-1) 0 _ _ _ Ho). apply (os_call_ret MapAnonymous). eauto.
    - intros [N Pl]. rewrite (map_anon_eq _ _ N), os_call_ret. apply (mmap_iff _ _ _ _ _ _ _ _ _ Ho). split; [exact Pl|].
      split; [lia|]. split; [apply Z.mod_0_l; lia|]. left. reflexivity.
  Qed.
  Lemma unmap_iff pg len w a o : w_orc w = Grant a :: o ->
    (exists x w', os_unmap t pg len w = (Ret x, w')) <-> 0 < len /\ pg mod P = 0.
  Proof.
    intros Ho. unfold os_unmap. rewrite os_call_ret. unfold sys_munmap, ask. rewrite Ho.
    destruct ((len <=? 0) || negb (pg mod P =? 0)) eqn:E.
    - split; [intros (x & w' & H); discriminate H|intros [L A]]. apply orb_true_iff in E as [E|E]; [apply Z.leb_le in E; lia|].
      rewrite A in E. discriminate E.
    - split; [intros _|intros _; eexists; eexists; reflexivity]. apply orb_false_elim in E as [E1 E2].
      apply Z.leb_gt in E1. apply negb_false_iff, Z.eqb_eq in E2. auto.
  Qed.
  Lemma on_range_iff pg len ok f w a o : w_orc w = Grant a :: o ->
    (exists x w', on_range t pg len ok f w = (Ret x, w')) <->
    pg mod P = 0 /\ forall q, overlaps t pg len q = true -> exists e, w_vm w q = Some e /\ ok e = Ret tt.
  Proof.
    intros Ho. split.
    - intros (x & w' & H). apply (on_range_spec t) in H. destruct H as (A & V & _). split; [exact A|].
      intros q Q. apply (overlaps_iff _ _ _ A) in Q. exact (V q Q).
    - intros [A V]. exists tt. apply (on_range_grant t pg len ok f w a o Ho A). intros q Q. apply V, (overlaps_iff _ _ _ A), Q.
  Qed.
  Lemma lock_iff pg len w a o : w_orc w = Grant a :: o -> (exists x w', os_lock t pg len w = (Ret x, w')) <-> all_mapped t w pg len.
  Proof.
    intros Ho. unfold os_lock, sys_mlock. rewrite os_call_ret, (on_range_iff _ _ _ _ _ _ _ Ho). unfold all_mapped.
    split; intros [A V]; (split; [exact A|]); intros q Q; destruct (V q Q) as (e & E); [exists e; tauto|exists e; auto].
  Qed.
  Lemma unlock_iff pg len w a o : w_orc w = Grant a :: o -> (exists x w', os_unlock t pg len w = (Ret x, w')) <-> all_mapped t w pg len.
  Proof.
    intros Ho. unfold os_unlock, sys_munlock. rewrite os_call_ret, (on_range_iff _ _ _ _ _ _ _ Ho). unfold all_mapped.
    split; intros [A V]; (split; [exact A|]); intros q Q; destruct (V q Q) as (e & E); [exists e; tauto|exists e; auto].
  Qed.
  Lemma advise_iff pg len k w a o : w_orc w = Grant a :: o -> (exists x w', os_advise t pg len k w = (Ret x, w')) <->
    all_mapped t w pg len /\ (k = AdvWillNotNeed -> forall q e, overlaps t pg len q = true -> w_vm w q = Some e -> p_lock e = false).
  Proof.
    intros Ho. unfold os_advise, sys_madvise. rewrite os_call_ret, (on_range_iff _ _ _ _ _ _ _ Ho). unfold all_mapped. split.
    - intros [A V]. split; [split; [exact A|]; intros q Q; destruct (V q Q) as (e & E & _); eauto|].
      intros -> q e Q E. destruct (V q Q) as (e1 & E1 & K). rewrite E in E1. injection E1 as <-. cbn in K. destruct (p_lock e); [discriminate K|reflexivity].
    - intros [[A V] L]. split; [exact A|]. intros q Q. destruct (V q Q) as (e & E). exists e. split; [exact E|].
      destruct k; try reflexivity. rewrite (L eq_refl q e Q E). reflexivity.
  Qed.
  Lemma flush_iff pg len m w a o : w_orc w = Grant a :: o -> (exists x w', os_flush t pg len m w = (Ret x, w')) <-> all_mapped t w pg len.
  Proof.
    intros Ho. unfold os_flush. rewrite os_call_ret. split.
    - intros (x & w' & H). apply (msync_spec t) in H. destruct H as (A & V & _). split; [exact A|]. intros q Q. apply (overlaps_iff _ _ _ A) in Q. exact (V q Q).
    - intros [A V]. unfold sys_msync, ask. rewrite Ho, A. cbn [Z.eqb negb]. cbv zeta.
      assert (M : mapped_range (set_orc w o) (pg / P) (npages t len) = true).
      { apply mapped_range_iff. intros q Q. apply V, (overlaps_iff _ _ _ A), Q. }
      rewrite M. cbn [negb]. eexists. eexists. reflexivity.
  Qed.
End OsLayer.
