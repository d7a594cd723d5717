(** Proofs for ThreadLedgerSpec.v. *)
From Coq Require Import Lia.
From Verif Require Import Base Spec ErrorModel RingSpec RingModel SizeModel SizeProofs OsModel OthersModel MapModel MapSpec OsProofs MapProofs MapCreate MapOps
  ApiModel ApiSpec OthersProofs ApiProofs RingMapModel RingMapSpec MirrorProofs RingMapClaims RingProofs MemRingModel MemRingProofs
  ProcModel ProcSpec ProcFrame ProcProofs ProcPages ProcLedgerSpec ProcLedger ThreadModel ThreadSpec ThreadFrame ThreadProofs ThreadInv ThreadLedgerSpec.

Section Ledger.
  Variable t : target.
  Variable plat : platform.
  Hypothesis Ht : posix_target t.
  Notation P := (t_page t).
  Let Hg : good_target t := proj1 Ht.
  Let HP : 0 < P.
  Proof. exact (pow2_pos _ (proj1 (proj2 Hg))). Qed.
  Let HB : 32 <= t_bits t <= 64.
  Proof. destruct Hg as [[E|E] _]; lia. Qed.

  Definition owned (pd : pending) (fd : Z) : Prop := pd_owns pd = true /\ pd_fd pd = Some fd.
  Definition out_page (out : outcome) (q : Z) : Prop :=
    match out with
    | More pd => pd_page t pd q
    | MadeMap _ _ _ _ m => own_page t m q
    | MadeRing inf pg len => ring_page t (new_held inf pg len) q
    | Over _ => False
    end.
  Definition out_fd (out : outcome) (fd : Z) : Prop :=
    match out with
    | More pd => owned pd fd
    | MadeMap _ own _ f _ => own = true /\ f = fd
    | MadeRing _ _ _ => False
    | Over r => given r fd
    end.
  Definition undoes (pd : pending) : Prop := match pd with RUndo _ _ _ _ => True | _ => False end.
  (** A call that closes its file has failed. *)
  Definition fails (pd : pending) : Prop := match pd with MClose _ r => forall a, r <> Ret a | _ => True end.
  Record exactly (pd : pending) (w w' : world) (out : outcome) : Prop := {
    xt_vm : forall q, w_vm w' q <> None <-> (w_vm w q <> None /\ ~ pd_page t pd q) \/ out_page out q \/ (pd_page t pd q /\ says_no w /\ undoes pd);
    xt_new : forall q, out_page out q -> pd_page t pd q \/ w_vm w q = None;
    xt_left : forall q, pd_page t pd q -> says_no w -> undoes pd -> ~ out_page out q;
    xt_fd : forall fd, w_fd w' fd <> None <-> (w_fd w fd <> None /\ ~ owned pd fd) \/ out_fd out fd;
    xt_fresh : forall fd, out_fd out fd -> owned pd fd \/ w_fd w fd = None;
    xt_fails : match out with More pd' => fails pd' | _ => True end
  }.

  Lemma undo_exact pg len w r w' : 0 < len < 2 ^ (t_bits t - 1) -> pg mod P = 0 -> ignore (unmap_ring t pg len) w = (r, w') ->
    (says_no w -> w_vm w' = w_vm w) /\
    (~ says_no w -> forall p, w_vm w' p = if in_pages (pg / P) (npages t (2 * len)) p then None else w_vm w p).
  Proof.
    intros Hl Ha E. pose proof (bits_half t Hg) as [B _]. unfold ignore, unmap_ring, sbind in E. cbn [sout] in E.
    assert (M2 : umul (E:=error) t 2 len = Ret (2 * len)) by (unfold umul; rewrite wrap_in by lia; reflexivity).
    rewrite M2 in E. unfold os_unmap, os_call, sys_munmap, ask in E. unfold says_no. destruct (w_orc w) as [|[e|x] q] eqn:Eo.
    - injection E as _ <-. split; [reflexivity|tauto].
    - injection E as _ <-. split; [reflexivity|tauto].
    - split; [contradiction|]. intros _ p. rewrite Ha in E. rewrite (proj2 (Z.leb_gt (2 * len) 0)) in E by lia.
      cbn [Z.eqb negb orb] in E. injection E as _ <-. reflexivity.
  Qed.

  Lemma no_pages_vm (pd : pending) out w w' : (forall q, ~ pd_page t pd q) -> ~ undoes pd -> (forall q, ~ out_page out q) -> dom w w' ->
    forall q, w_vm w' q <> None <-> (w_vm w q <> None /\ ~ pd_page t pd q) \/ out_page out q \/ (pd_page t pd q /\ says_no w /\ undoes pd).
  Proof. intros A B C D q. specialize (A q). specialize (C q). specialize (D q). tauto. Qed.
  (** A stage that opens nothing, closes nothing and maps nothing. *)
  Lemma plain pd w w' out : (forall q, ~ pd_page t pd q) -> ~ undoes pd -> (forall q, ~ out_page out q) -> dom w w' -> w_fd w' = w_fd w ->
    (forall fd, owned pd fd -> w_fd w fd <> None) -> (forall fd, out_fd out fd <-> owned pd fd) -> match out with More pd' => fails pd' | _ => True end ->
    exactly pd w w' out.
  Proof.
    intros A B C D F O Of Fl. split.
    - apply no_pages_vm; assumption.
    - intros q H. destruct (C q H).
    - intros q _ _ U. contradiction.
    - intros fd. rewrite F, (Of fd). specialize (O fd).
      assert (Dc : owned pd fd \/ ~ owned pd fd).
      { unfold owned. destruct (pd_owns pd); [|right; intros [? _]; discriminate]. destruct (pd_fd pd) as [x|]; [|right; intros [_ ?]; discriminate].
        destruct (Z.eq_dec x fd) as [->|N]; [auto|right; intros [_ ?]; congruence]. }
      tauto.
    - intros fd H. left. apply Of, H.
    - exact Fl.
  Qed.
  Lemma fails_failure {A} fd (r : out error A) : fails (MClose fd (failure r)).
  Proof. intros a. destruct r; discriminate. Qed.
  Lemma plain_fail {A} pd own fd (r : out error A) w w' : (forall q, ~ pd_page t pd q) -> ~ undoes pd -> dom w w' -> w_fd w' = w_fd w ->
    pd_fd pd = Some fd -> pd_owns pd = own -> w_fd w fd <> None -> exactly pd w w' (map_fail own fd r).
  Proof.
    intros A0 B D F E1 E2 O. unfold map_fail. destruct own.
    - apply plain; [exact A0|exact B|intros q []|exact D|exact F| | |apply fails_failure].
      + intros x [_ H]. congruence.
      + intros x. unfold owned. cbn. rewrite E1, E2. reflexivity.
    - apply plain; [exact A0|exact B|intros q []|exact D|exact F| | |exact Logic.I].
      + intros x [_ H]. congruence.
      + intros x. unfold owned. cbn. rewrite E2. split; [destruct r; contradiction|intros [H _]; discriminate H].
  Qed.
  (** A stage that opens a descriptor. *)
  Lemma opening pd w w' out fd f : (forall q, ~ pd_page t pd q) -> ~ undoes pd -> (forall q, ~ out_page out q) -> dom w w' ->
    w_fd w fd = None -> w_fd w' = put (w_fd w) fd (Some f) -> (forall x, ~ owned pd x) -> (forall x, out_fd out x <-> x = fd) ->
    match out with More pd' => fails pd' | _ => True end -> exactly pd w w' out.
  Proof.
    intros A B C D F0 F1 O Of Fl. split.
    - apply no_pages_vm; assumption.
    - intros q H. destruct (C q H).
    - intros q _ _ U. contradiction.
    - intros x. rewrite F1, (Of x). unfold put. specialize (O x). destruct (Z.eqb_spec x fd) as [->|N].
      + split; [auto|discriminate].
      + tauto.
    - intros x H. right. apply Of in H as ->. exact F0.
    - exact Fl.
  Qed.
  (** The last stage: the descriptor is closed. *)
  Lemma closing pd w out fd : wf w -> ~ undoes pd -> (forall q, out_page out q <-> pd_page t pd q) -> (forall q, pd_page t pd q -> w_vm w q <> None) ->
    pd_fd pd = Some fd -> pd_owns pd = true -> (forall x, ~ out_fd out x) -> match out with More pd' => fails pd' | _ => True end ->
    (forall q, pd_page t pd q \/ ~ pd_page t pd q) -> exactly pd w (snd (sys_close fd w)) out.
  Proof.
    intros W B C M E1 E2 Of Fl Dc. destruct (close_extends fd w W) as (_ & _ & V & _ & _ & _ & F). cbv zeta in *. split.
    - intros q. rewrite V, (C q). specialize (M q). specialize (Dc q). tauto.
    - intros q H. left. apply C, H.
    - intros q _ _ U. contradiction.
    - intros x. rewrite F. unfold owned. rewrite E1, E2. specialize (Of x). unfold put. destruct (Z.eqb_spec x fd) as [->|N]; [tauto|].
      split; [intros H; left; split; [exact H|]; intros [_ H2]; congruence|tauto].
    - intros x H. destruct (Of x H).
    - exact Fl.
  Qed.
  Lemma page_dec pd q : pd_page t pd q \/ ~ pd_page t pd q.
  Proof. unfold pd_page, pd_addr. destruct pd; try tauto; try lia. destruct r; try tauto; lia. Qed.
  Lemma dom_quiet w w' : quiet w w' -> dom w w'.
  Proof. intros Q. apply dom_eq, (q_vm _ _ Q). Qed.
  Lemma dom_touched o w w' : touched o w w' -> dom w w'.
  Proof.
    intros T p. pose proof (tc_vm _ _ _ T p) as V. destruct (w_vm w p), (w_vm w' p); try contradiction V; try tauto; split; discriminate.
  Qed.
  Lemma opened_not w fd : fd_open w fd -> w_fd w fd <> None.
  Proof. intros [f ->]. discriminate. Qed.
  Lemma mem_open w fd len o : mem w fd len o -> w_fd w fd <> None.
  Proof. intros M. rewrite (hd_own _ _ _ (mm_hid _ _ _ _ M)). discriminate. Qed.

  (** A stage on the reserved pages. *)
  Lemma in_place pd pd' w w' fd : ~ undoes pd -> (forall q, pd_page t pd' q <-> pd_page t pd q) -> (forall q, pd_page t pd q -> w_vm w q <> None) ->
    (forall q, pd_page t pd' q -> w_vm w' q <> None) -> (forall q, ~ pd_page t pd q -> w_vm w' q = w_vm w q) ->
    w_fd w' = w_fd w -> w_fd w fd <> None -> pd_fd pd = Some fd -> pd_owns pd = true -> pd_fd pd' = Some fd -> pd_owns pd' = true -> fails pd' ->
    exactly pd w w' (More pd').
  Proof.
    intros B Pg M M' V F O E1 E2 E3 E4 Fl. split.
    - intros q. cbn [out_page]. specialize (Pg q). specialize (M q). specialize (M' q). destruct (page_dec pd q) as [Y|N]; [tauto|]. rewrite (V q N). tauto.
    - intros q H. left. apply Pg, H.
    - intros q _ _ U. contradiction.
    - intros x. rewrite F. cbn [out_fd]. unfold owned. rewrite E1, E2, E3, E4. destruct (Z.eq_dec fd x) as [->|N]; [tauto|].
      split; [intros H; left; split; [exact H|]; intros [_ H2]; congruence|]. intros [[H _]|[_ H]]; [exact H|congruence].
    - intros x H. left. unfold owned in *. cbn in H. rewrite E1, E2. unfold owned in H. rewrite E3, E4 in H. exact H.
    - exact Fl.
  Qed.

  Lemma adv_exact pd w out w' : wf w -> pend_ok t w pd -> fails pd -> advance t plat pd w = (out, w') -> exactly pd w w' out.
  Proof.
    intros W H Fa E.
    destruct pd; cbn [advance pend_ok] in *.
    - (* MOpen *)
      destruct H as [O Hp]. unfold io_call in E. destruct (file_open t (op_open o) path w) as [r w1] eqn:Eo.
      pose proof (domly_file_open t (op_open o) path w) as Dm. rewrite Eo in Dm. cbn [snd] in Dm. apply file_open_spec in Eo.
      destruct r as [fd|e| | |]; try contradiction Eo; injection E as <- <-.
      + destruct Eo as [_ Eo]. destruct (open_extends t _ _ _ _ _ _ _ _ W Eo) as (_ & _ & ob & F1 & F0 & _).
        eapply opening; [intros q []|intros []|intros q []|exact Dm|exact F0|exact F1|intros x [_ H]; discriminate H| |exact Logic.I].
        intros x. cbn. unfold owned. cbn. split; [intros [_ [= ->]]; reflexivity|intros ->; auto].
      + apply plain; [intros q []|intros []|intros q []|exact Dm|exact (q_fd _ _ Eo)| | |exact Logic.I].
        * intros x [_ H]. discriminate H.
        * intros x. unfold owned. cbn. intuition discriminate.
    - (* MStat *)
      destruct H as [O Hf]. unfold sbind, io_call, file_len in E. destruct (sys_fstat fd w) as [r w1] eqn:Es. apply fstat_spec in Es as [Q Es].
      destruct r as [l|e| | |]; try contradiction Es; cbn in E; injection E as <- <-.
      + apply plain; [intros q []|intros []|intros q []|exact (dom_quiet _ _ Q)|exact (q_fd _ _ Q)| |intros x; reflexivity|exact Logic.I].
        intros x [_ H]. injection H as <-. exact (opened_not _ _ Hf).
      + apply plain_fail; [intros q []|intros []|exact (dom_quiet _ _ Q)|exact (q_fd _ _ Q)|reflexivity|reflexivity|exact (opened_not _ _ Hf)].
    - (* MCut *)
      destruct H as (O & Hf & Hl).
      set (x := if op_truncate o && (0 <? flen) then resize_to t fd 0 else sret flen) in E.
      assert (C : x = resize_to t fd 0 \/ (exists sz, is_usize t sz /\ x = resize_to t fd sz) \/ exists l, is_usize t l /\ x = sret l)
        by (unfold x; destruct (op_truncate o && (0 <? flen)); eauto).
      clearbody x. destruct (x w) as [r w1] eqn:Er.
      pose proof (length_stage t Ht _ fd _ _ _ Er C) as L. destruct r as [l|e| | |]; try contradiction L; cbn in E; injection E as <- <-.
      + destruct L as (U & ob & T & S).
        apply plain; [intros q []|intros []|intros q []|exact (dom_touched _ _ _ T)|exact (tc_fd _ _ _ T)| |intros y; reflexivity|exact Logic.I].
        intros y [_ H]. injection H as <-. exact (opened_not _ _ Hf).
      + apply plain_fail; [intros q []|intros []|exact (dom_quiet _ _ L)|exact (q_fd _ _ L)|reflexivity|reflexivity|exact (opened_not _ _ Hf)].
    - (* MSize *)
      destruct H as (O & Hf & Hl). destruct (size_part t o fd flen w) as [r w1] eqn:Er.
      assert (C : size_part t o fd flen = resize_to t fd 0 \/ (exists sz, is_usize t sz /\ size_part t o fd flen = resize_to t fd sz) \/
                  exists l, is_usize t l /\ size_part t o fd flen = sret l).
      { pose proof (proj1 O) as Or. unfold size_part. destruct (op_resize o) as [|sz|sz|sz]; cbn [extent_ok] in Or.
        - eauto.
        - eauto.
        - destruct (_ <? _); eauto.
        - destruct (_ <? _); eauto. }
      pose proof (length_stage t Ht _ fd _ _ _ Er C) as L. destruct r as [l|e| | |]; try contradiction L; cbn in E; injection E as <- <-.
      + destruct L as (U & ob & T & S).
        apply plain; [intros q []|intros []|intros q []|exact (dom_touched _ _ _ T)|exact (tc_fd _ _ _ T)| |intros y; reflexivity|exact Logic.I].
        intros y [_ H]. injection H as <-. exact (opened_not _ _ Hf).
      + apply plain_fail; [intros q []|intros []|exact (dom_quiet _ _ L)|exact (q_fd _ _ L)|reflexivity|reflexivity|exact (opened_not _ _ Hf)].
    - (* MMap *)
      destruct H as (O & Hf' & Hl). pose proof Hf' as [f Hf]. destruct (map_part t o fd flen w) as [r w1] eqn:Er.
      apply (map_stage_spec t Ht _ _ _ _ _ _ _ O Hf Hl) in Er.
      destruct r as [[m|]|e| | |]; try contradiction Er; cbn in E; injection E as <- <-.
      + destruct Er as (_ & _ & _ & C & SF). split; cbn [out_page].
        * intros q. unfold pd_page at 1 2. cbn [pd_addr].
          assert (Dq : own_page t m q \/ ~ own_page t m q) by (unfold own_page; lia).
          destruct Dq as [Y|N].
          -- split; [auto|]. intros _. destruct (bk_pages _ _ _ _ _ _ _ (cr_backed _ _ _ _ _ _ _ _ C) q Y) as (e & -> & _). discriminate.
          -- rewrite (cr_rest _ _ _ _ _ _ _ _ C q N). tauto.
        * intros q Hq. right. exact (cr_free _ _ _ _ _ _ _ _ C q Hq).
        * intros q _ _ [].
        * intros x. rewrite (sf_fd _ _ SF). cbn [out_fd]. unfold owned. cbn. destruct own; [|intuition discriminate].
          destruct (Z.eq_dec fd x) as [->|N]; [rewrite Hf; intuition discriminate|].
          split; [intros H; left; split; [exact H|]; intros [_ H2]; congruence|]. intros [[H _]|[_ H]]; [exact H|contradiction].
        * intros x [-> ->]. left. split; reflexivity.
        * exact Logic.I.
      + destruct Er as [-> _]. destruct own.
        * apply plain; [intros q []|intros []|intros q []|apply dom_refl|reflexivity| | |exact Logic.I].
          -- intros x [_ H]. injection H as <-. exact (opened_not _ _ Hf').
          -- intros x. unfold owned. cbn. split; [intros ->; auto|intros [_ [= ->]]; reflexivity].
        * apply plain; [intros q []|intros []|intros q []|apply dom_refl|reflexivity| | |exact Logic.I].
          -- intros x [H _]. discriminate H.
          -- intros x. unfold owned. cbn. intuition discriminate.
      + destruct Er as (_ & Q & _). apply plain_fail; [intros q []|intros []|exact (dom_quiet _ _ Q)|exact (q_fd _ _ Q)|reflexivity|reflexivity|exact (opened_not _ _ Hf')].
    - (* MClose *)
      apply pair_eq in E as [<- <-]. apply closing; auto; try (intros q []); try reflexivity; try (intros q; apply page_dec).
      intros x Hx. cbn in Hx. destruct r as [[| | |]|e| | |]; try exact Hx; exact (Fa _ eq_refl).
    - (* ROpen *)
      destruct H as (U & D & Gb).
      assert (Qu : forall w1 r, quiet w w1 -> (forall x, ~ given r x) -> exactly (ROpen inf len clock round pb) w w1 (Over r)).
      { intros w1 r Q G. apply plain; [intros q []|intros []|intros q []|exact (dom_quiet _ _ Q)|exact (q_fd _ _ Q)| | |exact Logic.I].
        - intros x [_ H]. discriminate H.
        - intros x. unfold owned. cbn. specialize (G x). intuition discriminate. }
      assert (New : forall fd w1 next, opened w w1 fd -> pd_fd next = Some fd -> pd_owns next = true -> (forall q, ~ pd_page t next q) -> fails next ->
                exactly (ROpen inf len clock round pb) w w1 (More next)).
      { intros fd w1 next On E1 E2 F Fl. eapply opening; [intros q []|intros []|exact F|exact (dom_eq _ _ (on_vm _ _ _ On))|exact (on_fd0 _ _ _ On)|exact (on_fd _ _ _ On)| | |exact Fl].
        - intros x [_ H]. discriminate H.
        - intros x. cbn. unfold owned. rewrite E1, E2. split; [intros [_ [= ->]]; reflexivity|intros ->; auto]. }
      destruct plat.
      + unfold os_call in E. destruct (sys_memfd w) as [r w1] eqn:Em.
        apply memfd_spec in Em. destruct r as [fd|e| | |]; try contradiction Em; cbn in E; injection E as <- <-; [|apply Qu; [apply Em|intros x []]].
        destruct Em as (On & _). apply (New fd); auto; try (intros q []).
      + rewrite (shm_name_spec _ _ Gb) in E. destruct (clock round <? 0); [injection E as <- <-; apply Qu; [apply quiet_refl|intros x []]|].
        destruct (sys_open t (shm_path (name_for (clock round))) true true true false w) as [r w1] eqn:Eo.
        apply open_new_spec in Eo. destruct r as [fd|e| | |]; try contradiction Eo.
        * injection E as <- <-. destruct Eo as (On & _). apply (New fd); auto; try (intros q []); exact Logic.I.
        * cbv zeta in E. destruct Eo as [Q _]. destruct (raw_os_error _) as [c|]; [|injection E as <- <-; apply Qu; [exact Q|intros x []]].
          destruct (c =? EEXIST); injection E as <- <-; [|apply Qu; [exact Q|intros x []]].
          apply plain; [intros q []|intros []|intros q []|exact (dom_quiet _ _ Q)|exact (q_fd _ _ Q)| |intros x; reflexivity|exact Logic.I].
          intros x [_ H]. discriminate H.
    - (* RUnlink *)
      destruct H as (U & D & Hp & o & M & N). apply pair_eq in E as [<- <-].
      assert (K : w_vm (snd (sys_shm_unlink path w)) = w_vm w /\ w_fd (snd (sys_shm_unlink path w)) = w_fd w).
      { unfold sys_shm_unlink, ask. destruct (w_orc w) as [|[e|a] q]; cbn; auto. destruct (w_fs w path); cbn; auto. }
      destruct K as [K1 K2].
      apply plain; [intros q []|intros []|intros q []|exact (dom_eq _ _ K1)|exact K2| |intros x; reflexivity|exact Logic.I].
      intros x [_ H]. injection H as <-. exact (mem_open _ _ _ _ M).
    - (* RSize *)
      destruct H as (U & D & o & M & N). destruct (sys_ftruncate t fd (as_signed t len) w) as [r w1] eqn:Ef.
      apply ftruncate_spec in Ef. destruct r as [x|e| | |]; try contradiction Ef; injection E as <- <-.
      + destruct Ef as (f & orc & Hf & _ & H0 & ->). pose proof (resize_touched t (fd_obj f) (as_signed t len) w orc) as T.
        apply plain; [intros q []|intros []|intros q []|exact (dom_touched _ _ _ T)|exact (tc_fd _ _ _ T)| |intros y; reflexivity|exact Logic.I].
        intros y [_ H]. injection H as <-. exact (mem_open _ _ _ _ M).
      + apply plain; [intros q []|intros []|intros q []|exact (dom_quiet _ _ Ef)|exact (q_fd _ _ Ef)| |intros y; reflexivity|exact Logic.I].
        intros y [_ H]. injection H as <-. exact (mem_open _ _ _ _ M).
    - (* RReserve *)
      destruct H as (n & o & Hn & Hl & M & N). pose proof (bits_half t Hg) as [B1 B2].
      assert (Em : umul (E:=error) t len 2 = Ret (2 * len)) by (unfold umul; rewrite wrap_in by lia; f_equal; lia).
      rewrite Em in E. destruct (ring_mmap t RingAllocate false 0 (2 * len) false true (-1) w) as [r w1] eqn:Er.
      unfold ring_mmap in Er. apply os_call_inv in Er.
      destruct r as [pg|e| | |]; try (apply mmap_spec in Er; contradiction Er); cbn in E; injection E as <- <-.
      + apply mmap_spec in Er as (_ & _ & Mp & _ & _). pose proof Mp as [L0 Rg Fr V Fd Fs]. apply range_ok_iff in Rg as (R1 & R2 & R3).
        assert (En : npages t (2 * len) = 2 * n) by (rewrite Hn; replace (2 * (P * n)) with (P * (2 * n)) by lia; apply npages_mul, HP).
        rewrite En in *. assert (Hn0 : 0 < n) by nia.
        assert (Pg : forall q, pd_page t (RFirst inf len fd pg) q <-> pg / P <= q < pg / P + 2 * n).
        { intros q. unfold pd_page. cbn [pd_addr]. rewrite Hn. apply addr_page; auto. }
        split; cbn [out_page].
        * intros q. unfold pd_page at 1 3. cbn [pd_addr undoes]. rewrite Pg, V. destruct (in_pages_cases (pg / P) (2 * n) q) as [[-> Iq]|[-> Iq]]; [|tauto].
          split; [auto|discriminate].
        * intros q Hq. right. apply Fr. apply Pg in Hq. lia.
        * intros q _ _ [].
        * intros x. rewrite Fd. cbn [out_fd]. unfold owned. cbn. pose proof (mem_open _ _ _ _ M) as Op.
          destruct (Z.eq_dec fd x) as [->|Nx]; [tauto|]. split; [intros H; left; split; [exact H|]; intros [_ H2]; congruence|]. intros [[H _]|[_ H]]; [exact H|congruence].
        * intros x Hx. left. exact Hx.
        * exact Logic.I.
      + destruct Er as (c & Er & _). apply mmap_spec in Er.
        apply plain; [intros q []|intros []|intros q []|exact (dom_quiet _ _ Er)|exact (q_fd _ _ Er)| |intros y; reflexivity|exact Logic.I].
        intros y [_ H]. injection H as <-. exact (mem_open _ _ _ _ M).
    - (* RFirst *)
      pose proof (adv_local t plat Ht (RFirst inf len fd pg) w out w' W H) as L. cbn [advance] in L. specialize (L E). destruct L as (_ & _ & _ & L).
      pose proof (pend_mapped t Ht w (RFirst inf len fd pg)) as PM. pose proof (fun q => PM q H) as PM0. clear PM.
      pose proof (fun pd' Hp' => pend_mapped t Ht w' pd' Hp') as PM1.
      destruct H as (n & o & Hn & M & F). pose proof M as [M1 M2 M6 M7].
      destruct (ring_mmap t RingPrimary true pg len true false fd w) as [r w1] eqn:Er.
      unfold ring_mmap in Er. apply os_call_inv in Er.
      destruct r as [a|e| | |]; try (apply (mmap_fixed_spec t _ _ _ _ _ _ _ _ _ (hd_own _ _ _ M2) eq_refl) in Er; contradiction Er); injection E as <- <-.
      + apply (mmap_fixed_spec t _ _ _ _ _ _ _ _ _ (hd_own _ _ _ M2) eq_refl) in Er as (_ & _ & _ & V & O1 & N1 & Fd & Fs).
        rewrite Hn, (npages_mul t HP) in V. apply (in_place _ _ _ _ fd); auto; try (intros q; reflexivity).
        * intros q Hq. destruct (PM0 q Hq) as (x & ->). discriminate.
        * intros q Hq. destruct (half_mapped t Ht w pg n o 0 q F) as (x & Hx); [unfold pd_page in Hq; cbn [pd_addr] in Hq; rewrite Hn in Hq; exact Hq|].
          rewrite V. destruct (in_pages (pg / P) n q); [discriminate|rewrite Hx; discriminate].
        * intros q Hq. rewrite V, in_pages_no; [reflexivity|]. intros Iq. apply Hq.
          unfold pd_page. cbn [pd_addr]. rewrite Hn. apply (half_page t Ht _ _ _ _ _ _ F). pose proof (hf_n _ _ _ _ _ _ F). lia.
        * exact (mem_open _ _ _ _ M).
      + destruct Er as (c & Er & _). apply (mmap_fixed_spec t _ _ _ _ _ _ _ _ _ (hd_own _ _ _ M2) eq_refl) in Er.
        apply (in_place _ _ _ _ fd); auto; try (intros q; reflexivity).
        * intros q Hq. destruct (PM0 q Hq) as (x & ->). discriminate.
        * intros q Hq. rewrite (q_vm _ _ Er). destruct (PM0 q Hq) as (x & ->). discriminate.
        * intros q _. rewrite (q_vm _ _ Er). reflexivity.
        * exact (q_fd _ _ Er).
        * exact (mem_open _ _ _ _ M).
    - (* RSecond *)
      pose proof (pend_mapped t Ht w (RSecond inf len fd pg)) as PM. pose proof (fun q => PM q H) as PM0. clear PM.
      destruct H as (n & o & Hn & M & F). pose proof M as [M1 M2 M6 M7]. pose proof F as [F1 F2 F3 F4 F5 F6].
      assert (PA : ptr_add t pg len = pg + len) by (unfold ptr_add, as_usize; rewrite Z.mod_small; nia). rewrite PA in E.
      assert (DE : (pg + len) / P = pg / P + n) by (rewrite Hn, (Z.mul_comm P n), Z.div_add by lia; reflexivity).
      destruct (ring_mmap t RingSecondary true (pg + len) len true false fd w) as [r w1] eqn:Er.
      unfold ring_mmap in Er. apply os_call_inv in Er.
      destruct r as [a|e| | |]; try (apply (mmap_fixed_spec t _ _ _ _ _ _ _ _ _ (hd_own _ _ _ M2) eq_refl) in Er; contradiction Er); injection E as <- <-.
      + apply (mmap_fixed_spec t _ _ _ _ _ _ _ _ _ (hd_own _ _ _ M2) eq_refl) in Er as (_ & _ & _ & V & O1 & N1 & Fd & Fs).
        rewrite DE in V. rewrite Hn, (npages_mul t HP) in V. apply (in_place _ _ _ _ fd); auto; try (intros q; reflexivity).
        * intros q Hq. destruct (PM0 q Hq) as (x & ->). discriminate.
        * intros q Hq. destruct (PM0 q Hq) as (x & Hx). rewrite V. destruct (in_pages (pg / P + n) n q); [discriminate|rewrite Hx; discriminate].
        * intros q Hq. rewrite V, in_pages_no; [reflexivity|]. intros Iq. apply Hq.
          unfold pd_page. cbn [pd_addr]. rewrite Hn. apply (half_page t Ht _ _ _ _ _ _ F). lia.
        * exact (mem_open _ _ _ _ M).
      + destruct Er as (c & Er & _). apply (mmap_fixed_spec t _ _ _ _ _ _ _ _ _ (hd_own _ _ _ M2) eq_refl) in Er.
        apply (in_place _ _ _ _ fd); auto; try (intros q; reflexivity).
        * intros q Hq. destruct (PM0 q Hq) as (x & ->). discriminate.
        * intros q Hq. rewrite (q_vm _ _ Er). destruct (PM0 q Hq) as (x & ->). discriminate.
        * intros q _. rewrite (q_vm _ _ Er). reflexivity.
        * exact (q_fd _ _ Er).
        * exact (mem_open _ _ _ _ M).
    - (* RUndo *)
      pose proof (pend_mapped t Ht w (RUndo len fd pg e)) as PM. pose proof (fun q => PM q H) as PM0. clear PM.
      destruct H as (n & o & j & Hn & Hj & M & F). pose proof F as [F1 F2 F3 F4 F5 F6]. pose proof (bits_half t Hg) as [B1 B2].
      destruct (ignore (unmap_ring t pg len) w) as [r w1] eqn:Er.
      assert (Bd : 0 < len < 2 ^ (t_bits t - 1)) by nia.
      destruct (undo_exact pg len w r w1 Bd F2 Er) as [Y N].
      apply (RingMapClaims.drop_spec t Hg pg len) in Er; [|exact Bd|exact F2]. destruct Er as (-> & _ & _ & Fd & _ & _). injection E as <- <-.
      assert (Pg : forall q, pd_page t (RUndo len fd pg e) q <-> pg / P <= q < pg / P + 2 * n).
      { intros q. unfold pd_page. cbn [pd_addr]. rewrite Hn. apply (half_page t Ht _ _ _ _ _ _ F). }
      rewrite Hn in N. replace (2 * (P * n)) with (P * (2 * n)) in N by lia. rewrite (npages_mul t HP) in N.
      split; cbn [out_page undoes].
      + intros q. unfold pd_page at 2. cbn [pd_addr]. destruct (says_no_dec w) as [Sn|(x & qq & Eo)].
        * rewrite (Y Sn). specialize (PM0 q). destruct (page_dec (RUndo len fd pg e) q) as [Yq|Nq]; [|tauto].
          destruct (PM0 Yq) as (y & ->). split; [auto|discriminate].
        * assert (Ns : ~ says_no w) by (unfold says_no; rewrite Eo; auto). rewrite (N Ns q).
          destruct (in_pages_cases (pg / P) (2 * n) q) as [[-> Iq]|[-> Iq]].
          -- split; [contradiction|]. rewrite Pg. intros [[_ C]|[[]|(_ & C & _)]]; [destruct (C Iq)|contradiction].
          -- split; [|tauto]. intros H. left. split; [exact H|]. intros C. apply Pg in C. exact (Iq C).
      + intros q [].
      + intros q _ _ _ [].
      + intros x. rewrite Fd. cbn [out_fd]. unfold owned. cbn. pose proof (mem_open _ _ _ _ M) as Op.
        destruct (Z.eq_dec fd x) as [->|Nx]; [tauto|]. split; [intros H; left; split; [exact H|]; intros [_ H2]; congruence|]. intros [[H _]|[_ H]]; [exact H|congruence].
      + intros x Hx. left. exact Hx.
      + exact Logic.I.
    - (* RClose *)
      pose proof (pend_mapped t Ht w (RClose inf len fd r)) as PM. pose proof (fun q => PM q H) as PM0. clear PM.
      assert (Ea : forall pg, h_alloc (new_held inf pg len) = {| ra_ptr := pg; ra_len := len |}) by (intros; destruct inf; reflexivity).
      destruct r as [pg|e| | |]; apply pair_eq in E as [<- <-]; apply closing; auto; try (intros q; apply page_dec); try (intros q; reflexivity);
        try (intros q Hq; destruct (PM0 q Hq) as (x & ->); discriminate).
      intros q. cbn [out_page]. unfold ring_page, ring_addr. rewrite Ea. reflexivity.
  Qed.

  (** ** Calls made as one step *)
  Lemma call_fds p c fd : pok t p -> pcall_ok t c -> one_step c = true -> c <> PMap (CClose fd) -> w_fd (pc_w (snd (pstep t plat c p))) fd = w_fd (pc_w p) fd.
  Proof.
    intros K CO On N. destruct c as [c|hint clock|hint clock|k c|k c|k]; try discriminate On; cbn [pstep].
    - destruct (step t c (pc_a p)) as [r a'] eqn:E. cbn [snd]. apply (step_fds t Ht c _ r); auto; [exact (pk_api _ _ K)|apply CO|congruence].
    - destruct (pc_ring p k) as [[s|s]|] eqn:Hk; try reflexivity.
      destruct (kring_step t world (load t) (store t) c s (pc_w p)) as [r [s' w']] eqn:E. cbn [snd].
      destruct (pk_ring _ _ K _ _ Hk) as (F & n & o & m & H). destruct (ring_call t Ht _ _ _ _ _ _ _ _ _ H F CO E) as (_ & _ & [_ _ A3 _ _ _ _ _] & _).
      change (w_fd w' fd = w_fd (pc_w p) fd). rewrite A3. reflexivity.
    - destruct (pc_ring p k) as [[s|s]|] eqn:Hk; try reflexivity.
      destruct (kiring_step t world (load t) (store t) c s (pc_w p)) as [r [s' w']] eqn:E. cbn [snd].
      destruct (pk_ring _ _ K _ _ Hk) as (F & n & o & m & H). destruct (inf_call t Ht _ _ _ _ _ _ _ _ _ H F CO E) as (_ & _ & [_ _ A3 _ _ _ _ _] & _).
      change (w_fd w' fd = w_fd (pc_w p) fd). rewrite A3. reflexivity.
    - destruct (pc_ring p k) as [h|] eqn:Hk; [|reflexivity]. destruct (ring_drop t (h_alloc h) (pc_w p)) as [r w'] eqn:E. cbn [snd].
      destruct (pk_ring _ _ K _ _ Hk) as (F & n & o & m & H). destruct (home_drop t Ht _ _ _ _ _ _ _ H E) as (_ & _ & _ & E3 & _).
      change (w_fd w' fd = w_fd (pc_w p) fd). rewrite E3. reflexivity.
  Qed.

  (** ** The other threads *)
  Definition other_page (s : tsys) (tid pg : Z) : Prop := exists j pd, j <> tid /\ ts_pool s j = Some pd /\ pd_page t pd pg.
  Definition other_fd (s : tsys) (tid fd : Z) : Prop := exists j pd, j <> tid /\ ts_pool s j = Some pd /\ owned pd fd.
  Lemma busy_split s tid pg : busy_page t s pg <-> other_page s tid pg \/ exists pd, ts_pool s tid = Some pd /\ pd_page t pd pg.
  Proof.
    split.
    - intros (j & pd & H1 & H2). destruct (Z.eq_dec j tid) as [->|N]; [right|left]; [eauto|exists j, pd; auto].
    - intros [(j & pd & _ & H1 & H2)|(pd & H1 & H2)]; [exists j, pd|exists tid, pd]; auto.
  Qed.
  Lemma busy_fd_split s tid fd : (exists i, busy_fd s i fd) <-> other_fd s tid fd \/ exists pd, ts_pool s tid = Some pd /\ owned pd fd.
  Proof.
    split.
    - intros (j & pd & H1 & H2). destruct (Z.eq_dec j tid) as [->|N]; [right; exists pd; auto|left; exists j, pd; auto].
    - intros [(j & pd & _ & H1 & H2)|(pd & H1 & H2)]; [exists j, pd|exists tid, pd]; auto.
  Qed.
  Lemma other_page_set s p tid x pg : other_page (set_pool s p tid x) tid pg <-> other_page s tid pg.
  Proof. split; intros (j & pd & N & H1 & H2); exists j, pd; (split; [exact N|split; [|exact H2]]); cbn in *; [rewrite put_other in H1|rewrite put_other]; auto. Qed.
  Lemma other_fd_set s p tid x fd : other_fd (set_pool s p tid x) tid fd <-> other_fd s tid fd.
  Proof. split; intros (j & pd & N & H1 & H2); exists j, pd; (split; [exact N|split; [|exact H2]]); cbn in *; [rewrite put_other in H1|rewrite put_other]; auto. Qed.

  Record counted (w : world) (s : tsys) (L D : Z -> Prop) : Prop := {
    ct_ok : tok t s;
    ct_fails : forall tid pd, ts_pool s tid = Some pd -> fails pd;
    ct_pages : pages_accounted t w s L;
    ct_files : files_accounted s D
  }.

  Lemma one_owner s fd : tok t s -> forall i j, busy_fd s i fd -> busy_fd s j fd -> i = j.
  Proof.
    intros K i j (a & Ha & Oa & Fa) (b & Hb & Ob & Fb). destruct (Z.eq_dec i j) as [|N]; [assumption|].
    destruct (tk_fds _ _ K _ _ _ _ _ Ha Hb N Oa Fa Fb).
  Qed.

  (** The pages before and after a stage ([V], [V']): mapped at the start,
      held, of the other threads, of this thread, made by the stage, left. *)
  Lemma page_sum (V V' M H H' O C N U X L : Prop) : (V <-> M \/ H \/ (O \/ C) \/ L) -> (M -> ~ H /\ ~ (O \/ C) /\ ~ L) -> (H -> ~ (O \/ C) /\ ~ L) -> (O \/ C -> ~ L) ->
    (V' <-> (V /\ ~ C) \/ N \/ (C /\ U)) -> (N -> C \/ ~ V) -> (C /\ U -> ~ N) -> (H' \/ X <-> H \/ N) -> (X -> N /\ ~ H') -> (O -> ~ C) -> C \/ ~ C ->
    (V' <-> M \/ H' \/ (O \/ X) \/ (L \/ (C /\ U))) /\ (M -> ~ H' /\ ~ (O \/ X) /\ ~ (L \/ (C /\ U))) /\ (H' -> ~ (O \/ X) /\ ~ (L \/ (C /\ U))) /\ (O \/ X -> ~ (L \/ (C /\ U))).
  Proof.
    intros HV HM HH HL HV' HN HU Hh HX HO [c|c].
    - assert (~ M) by (clear - c HM; tauto). assert (~ H) by (clear - c HH; tauto). assert (~ O) by (clear - c HO; tauto). assert (~ L) by (clear - c HL; tauto).
      assert (V' <-> N \/ U) by (clear - c HV'; tauto). assert (H' \/ X <-> N) by (clear - H0 H1 Hh; tauto). assert (U -> ~ N) by (clear - c HU; tauto).
      clear HV HM HH HL HN HO HV' Hh HU. repeat split; tauto.
    - assert (nV : N -> ~ V) by (clear - c HN; tauto). assert (v' : V' <-> V \/ N) by (clear - c HV'; tauto). assert (v : V <-> M \/ H \/ O \/ L) by (clear - c HV; tauto).
      assert (E : L \/ (C /\ U) <-> L) by (clear - c; tauto). rewrite !E. clear HN HV' HV HU HO E.
      assert (m : M -> ~ H /\ ~ O /\ ~ L) by (clear - c HM; tauto). assert (h : H -> ~ O /\ ~ L) by (clear - c HH; tauto). assert (o : O -> ~ L) by (clear - c HL; tauto). clear HM HH HL c.
      assert (n : N -> ~ M /\ ~ H /\ ~ O /\ ~ L) by (clear - nV v; tauto).
      split; [|split; [|split]].
      + split; [intros Q; apply v' in Q as [Q|Q]; [apply v in Q|]; clear - Q Hh; tauto|]. intros Q. apply v'. clear v'.
        assert (Q' : M \/ H \/ O \/ L \/ N) by (clear - Q Hh; tauto). clear - Q' v. tauto.
      + intros Q. pose proof (m Q) as Q'. assert (~ N) by (clear - Q n; tauto). clear - Q' H0 Hh. tauto.
      + intros Q. assert (Q1 : H \/ N) by (clear - Q Hh; tauto). assert (Q2 : ~ O /\ ~ L) by (clear - Q1 h n; tauto). assert (~ X) by (clear - Q HX; tauto). clear - Q2 H0. tauto.
      + intros [Q|Q]; [exact (o Q)|]. destruct (HX Q) as [Q1 _]. clear - Q1 n. tauto.
  Qed.

  (** A stage: its thread's pages and descriptor are exchanged for the new ones. *)
  Lemma stage_counted w s L D tid pd w' out p' x : counted w s L D -> ts_pool s tid = Some pd -> exactly pd (pc_w (ts_p s)) w' out ->
    tok t (set_pool s p' tid x) -> pc_w p' = w' -> (forall pd', x = Some pd' -> fails pd') ->
    (forall pg, holds_page t p' pg \/ (exists pd', x = Some pd' /\ pd_page t pd' pg) <-> holds_page t (ts_p s) pg \/ out_page out pg) ->
    (forall pg, (exists pd', x = Some pd' /\ pd_page t pd' pg) -> out_page out pg /\ ~ holds_page t p' pg) ->
    forall G : Z -> Prop,
    (forall fd, G fd \/ (exists pd', x = Some pd' /\ owned pd' fd) <-> out_fd out fd) ->
    (forall fd, (exists pd', x = Some pd' /\ owned pd' fd) -> ~ G fd) ->
    counted w (set_pool s p' tid x)
      (fun pg => L pg \/ (exists pd0, ts_pool s tid = Some pd0 /\ pd_page t pd0 pg /\ says_no (pc_w (ts_p s)) /\ undoes pd0))
      (fun fd => (D fd /\ EGo tid <> ECall (PMap (CClose fd))) \/ G fd).
  Proof.
    intros [K Fl Pa Fi] Hp [V Nw Lf Fd Fr _] K' Ew Fx Ho Dx G Hf Df.
    split; [exact K'| | |].
    - intros i a Ha. cbn in Ha. apply pool_cases in Ha as [[-> Ha]|[_ Ha]]; [exact (Fx a Ha)|exact (Fl i a Ha)].
    - intros pg. specialize (Pa pg). rewrite (busy_split s tid pg) in Pa. rewrite (busy_split (set_pool s p' tid x) tid pg), other_page_set.
      cbn [set_pool ts_p ts_pool]. rewrite put_same. rewrite Ew. specialize (V pg). specialize (Nw pg). specialize (Lf pg). specialize (Ho pg). specialize (Dx pg).
      assert (Ec : (exists pd0, ts_pool s tid = Some pd0 /\ pd_page t pd0 pg) <-> pd_page t pd pg) by (rewrite Hp; split; [intros (a & [= <-] & Q); exact Q|eauto]).
      assert (El : (exists pd0, ts_pool s tid = Some pd0 /\ pd_page t pd0 pg /\ says_no (pc_w (ts_p s)) /\ undoes pd0) <-> (pd_page t pd pg /\ says_no (pc_w (ts_p s)) /\ undoes pd))
        by (rewrite Hp; split; [intros (a & [= <-] & Q); exact Q|eauto]).
      rewrite Ec in Pa. rewrite El.
      assert (Ap : other_page s tid pg -> ~ pd_page t pd pg).
      { intros (j & b & N & Hb & Qb) Q. exact (tk_pages _ _ K _ _ _ _ _ Hb Hp N Qb Q). }
      pose proof (page_dec pd pg) as Dc. clear Ec El Hp K K' Fl Fi Fd Fr Hf Df Fx Ew.
      destruct Pa as (P1 & P2 & P3 & P4).
      refine (page_sum (w_vm (pc_w (ts_p s)) pg <> None) (w_vm w' pg <> None) (w_vm w pg <> None) (holds_page t (ts_p s) pg) (holds_page t p' pg) (other_page s tid pg)
        (pd_page t pd pg) (out_page out pg) (says_no (pc_w (ts_p s)) /\ undoes pd) _ (L pg) P1 P2 P3 P4 V _ _ Ho Dx Ap Dc).
      + intros Q. destruct (Nw Q) as [Q'|Q']; [left; exact Q'|right; congruence].
      + intros (Q1 & Q2 & Q3). exact (Lf Q1 Q2 Q3).
    - intros fd. specialize (Fi fd). destruct Fi as (F1 & F2 & F3). specialize (Fd fd). specialize (Fr fd). specialize (Hf fd). specialize (Df fd).
      rewrite (busy_fd_split s tid fd) in F1. rewrite (busy_fd_split (set_pool s p' tid x) tid fd), other_fd_set.
      cbn [set_pool ts_p ts_pool]. rewrite put_same. rewrite Ew.
      assert (Ec : (exists pd0, ts_pool s tid = Some pd0 /\ owned pd0 fd) <-> owned pd fd) by (rewrite Hp; split; [intros (a & [= <-] & Q); exact Q|eauto]).
      rewrite Ec in F1.
      assert (Ao : other_fd s tid fd -> ~ owned pd fd /\ ~ D fd).
      { intros (j & b & N & Hb & Qb). split; [|apply (F2 j); exists b; auto]. intros Q. apply N. apply (one_owner s fd K); [exists b|exists pd]; auto. }
      assert (Ad : owned pd fd -> ~ D fd) by (intros Q; apply (F2 tid); exists pd; auto).
      assert (Dc : owned pd fd \/ ~ owned pd fd).
      { unfold owned. destruct (pd_owns pd); [|right; intros [? _]; discriminate]. destruct (pd_fd pd) as [y|]; [|right; intros [_ ?]; discriminate].
        destruct (Z.eq_dec y fd) as [->|N]; [auto|right; intros [_ ?]; congruence]. }
      assert (Nn : EGo tid <> ECall (PMap (CClose fd))) by discriminate.
      split; [|split].
      + clear - F1 Fd Fr Hf Df Ao Ad Dc Nn. revert F1 Fd Fr Hf Df Ao Ad Dc Nn.
        generalize (other_fd s tid fd) (owned pd fd) (out_fd out fd) (exists pd', x = Some pd' /\ owned pd' fd) (G fd) (D fd).
        intros. tauto.
      + intros i B Hd. assert (B' : other_fd s tid fd \/ exists pd', x = Some pd' /\ owned pd' fd).
        { apply (proj1 (busy_fd_split (set_pool s p' tid x) tid fd)) in B || (apply (other_fd_set s p' tid x fd) || idtac).
          all: assert (B1 : exists i, busy_fd (set_pool s p' tid x) i fd) by (exists i; exact B); apply (busy_fd_split _ tid) in B1; rewrite other_fd_set in B1; cbn in B1; rewrite put_same in B1; exact B1. }
        assert (Nf : D fd -> w_fd (pc_w (ts_p s)) fd <> None) by tauto.
        destruct B' as [B'|B'].
        * destruct (Ao B') as [A1 A2]. destruct Hd as [[Hd _]|Hd]; [exact (A2 Hd)|]. destruct (Fr (proj1 Hf (or_introl Hd))) as [C|C]; [exact (A1 C)|]. tauto.
        * pose proof (proj1 Hf (or_intror B')) as B2. destruct Hd as [[Hd _]|Hd]; [|exact (Df B' Hd)]. destruct (Fr B2) as [C|C]; [exact (Ad C Hd)|exact (Nf Hd C)].
      + exact (one_owner _ fd K').
  Qed.

  Lemma holds_new_map p w' l pg : pok t p ->
    holds_page t {| pc_a := add_live (pc_a p) w' l; pc_ring := pc_ring p; pc_cnt := pc_cnt p |} pg <-> holds_page t p pg \/ own_page t (l_map l) pg.
  Proof.
    intros K. unfold holds_page. cbn [pc_a pc_ring add_live a_live].
    assert (N : a_live (pc_a p) (a_cnt (pc_a p)) = None) by (apply (ok_cnt _ _ (pk_api _ _ K)); lia). split.
    - intros [H|(k & l0 & Hk & Hp)]; [auto|]. apply put_cases in Hk as [[_ ->]|[_ Hk]]; eauto 6.
    - intros [[H|(k & l0 & Hk & Hp)]|H]; [auto| |].
      + right. exists k, l0. rewrite put_other; [auto|congruence].
      + right. exists (a_cnt (pc_a p)), l. rewrite put_same. auto.
  Qed.
  Lemma holds_new_ring p w' h pg : pok t p ->
    holds_page t {| pc_a := set_w (pc_a p) w'; pc_ring := put (pc_ring p) (pc_cnt p) (Some h); pc_cnt := pc_cnt p + 1 |} pg <-> holds_page t p pg \/ ring_page t h pg.
  Proof.
    intros K. unfold holds_page. cbn [pc_a pc_ring set_w a_live].
    assert (N : pc_ring p (pc_cnt p) = None) by (apply (pk_cnt _ _ K); lia). split.
    - intros [(k & l0 & Hk & Hp)|H]; [|auto]. apply put_cases in Hk as [[_ ->]|[_ Hk]]; eauto 6.
    - intros [[(k & l0 & Hk & Hp)|H]|H]; [|auto|].
      + left. exists k, l0. rewrite put_other; [auto|congruence].
      + left. exists (pc_cnt p), h. rewrite put_same. auto.
  Qed.

  Lemma none_page (pg : Z) : ~ exists pd', None = Some pd' /\ pd_page t pd' pg.
  Proof. intros (a & H & _). discriminate H. Qed.
  Lemma none_fd (fd : Z) : ~ exists pd', None = Some pd' /\ owned pd' fd.
  Proof. intros (a & H & _). discriminate H. Qed.
  Lemma some_page pd pg : (exists pd', Some pd = Some pd' /\ pd_page t pd' pg) <-> pd_page t pd pg.
  Proof. split; [intros (a & [= <-] & H); exact H|eauto]. Qed.
  Lemma some_fd pd fd : (exists pd', Some pd = Some pd' /\ owned pd' fd) <-> owned pd fd.
  Proof. split; [intros (a & [= <-] & H); exact H|eauto]. Qed.

  Lemma go_counted w s L D tid pd : counted w s L D -> ts_pool s tid = Some pd ->
    counted w (snd (go t plat tid pd s))
      (fun pg => L pg \/ (exists pd0, ts_pool s tid = Some pd0 /\ pd_page t pd0 pg /\ says_no (pc_w (ts_p s)) /\ undoes pd0))
      (fun fd => (D fd /\ EGo tid <> ECall (PMap (CClose fd))) \/ given (fst (go t plat tid pd s)) fd).
  Proof.
    intros C Hp. pose proof C as [K Fl Pa Fi]. pose proof (go_ok t plat Ht s tid pd K Hp) as K'. revert K'. unfold go.
    destruct (advance t plat pd (pc_w (ts_p s))) as [out w'] eqn:E.
    pose proof (adv_exact _ _ _ _ (ok_wf _ _ (pk_api _ _ (tk_proc _ _ K))) (tk_pend _ _ K _ _ Hp) (Fl _ _ Hp) E) as X.
    destruct out as [pd'|mut own o fd m|inf pg len|r]; cbn [fst snd]; intros K'.
    - apply (stage_counted w s L D tid pd w' (More pd') _ _ C Hp X K' eq_refl).
      + intros a [= <-]. exact (xt_fails _ _ _ _ X).
      + intros q. rewrite some_page. reflexivity.
      + intros q. rewrite some_page. intros Hq. split; [exact Hq|]. intros Hh. cbn in Hh.
        change (holds_page t (ts_p s) q) in Hh. specialize (Pa q).
        destruct (xt_new _ _ _ _ X q Hq) as [Q|Q].
        * apply (proj1 (proj1 (proj2 (proj2 Pa)) Hh)). exists tid, pd. auto.
        * apply (proj2 (proj1 Pa)); auto.
      + intros x. rewrite some_fd. cbn. tauto.
      + intros x _ [].
    - apply (stage_counted w s L D tid pd w' (MadeMap mut own o fd m) _ _ C Hp X K' eq_refl).
      + discriminate.
      + intros q. rewrite (holds_new_map _ _ _ _ (tk_proc _ _ K)). pose proof (none_page q). cbn [out_page file_live l_map]. tauto.
      + intros q H. destruct (none_page q H).
      + intros x. pose proof (none_fd x). cbn. destruct own; intuition discriminate.
      + intros x H. destruct (none_fd x H).
    - apply (stage_counted w s L D tid pd w' (MadeRing inf pg len) _ _ C Hp X K' eq_refl).
      + discriminate.
      + intros q. rewrite (holds_new_ring _ _ _ _ (tk_proc _ _ K)). pose proof (none_page q). cbn [out_page]. tauto.
      + intros q H. destruct (none_page q H).
      + intros x. pose proof (none_fd x). cbn. tauto.
      + intros x H. destruct (none_fd x H).
    - apply (stage_counted w s L D tid pd w' (Over r) _ _ C Hp X K' eq_refl).
      + discriminate.
      + intros q. pose proof (none_page q). cbn [out_page]. change (holds_page t (pc_set_w (ts_p s) w') q) with (holds_page t (ts_p s) q). tauto.
      + intros q H. destruct (none_page q H).
      + intros x. pose proof (none_fd x). cbn. tauto.
      + intros x H. destruct (none_fd x H).
  Qed.

  Lemma counted_ext w s L D (L' D' : Z -> Prop) : counted w s L D -> (forall pg, L' pg <-> L pg) -> (forall fd, D' fd <-> D fd) -> counted w s L' D'.
  Proof.
    intros [K Fl Pa Fi] El Ed. split; [exact K|exact Fl| |].
    - intros pg. rewrite (El pg). exact (Pa pg).
    - intros fd. destruct (Fi fd) as (A & B & C). split; [rewrite (Ed fd); exact A|]. split; [|exact C]. intros i H. rewrite (Ed fd). exact (B i H).
  Qed.
  Lemma begin_counted w s L D tid pd : counted w s L D -> ts_pool s tid = None -> tok t (set_pool s (ts_p s) tid (Some pd)) -> fails pd ->
    (forall q, ~ pd_page t pd q) -> (forall fd, ~ owned pd fd) -> counted w (set_pool s (ts_p s) tid (Some pd)) L D.
  Proof.
    intros [K Fl Pa Fi] N0 K' Fp Np Nf. split; [exact K'| | |].
    - intros i a Ha. apply pool_cases in Ha as [[-> [= <-]]|[_ Ha]]; [exact Fp|exact (Fl i a Ha)].
    - intros pg. specialize (Pa pg). assert (Eb : busy_page t (set_pool s (ts_p s) tid (Some pd)) pg <-> busy_page t s pg).
      { rewrite !(busy_split _ tid), other_page_set. cbn. rewrite put_same, N0, some_page. pose proof (none_page pg). pose proof (Np pg). tauto. }
      rewrite Eb. exact Pa.
    - intros fd. destruct (Fi fd) as (A & B & _). assert (Eb : (exists i, busy_fd (set_pool s (ts_p s) tid (Some pd)) i fd) <-> exists i, busy_fd s i fd).
      { rewrite !(busy_fd_split _ tid), other_fd_set. cbn. rewrite put_same, N0, some_fd. pose proof (none_fd fd). pose proof (Nf fd). tauto. }
      split; [rewrite Eb; exact A|]. split; [|exact (one_owner _ fd K')]. intros i H. destruct (proj1 Eb (ex_intro _ i H)) as (j & Hj). exact (B j Hj).
  Qed.

  Lemma call_counted w s L D c : counted w s L D -> ev_ok t s (ECall c) ->
    counted w (snd (tstep t plat (ECall c) s))
      (fun pg => L pg \/ tlost t (ECall c) s (fst (tstep t plat (ECall c) s)) (snd (tstep t plat (ECall c) s)) pg)
      (fun fd => (D fd /\ ECall c <> ECall (PMap (CClose fd))) \/ given (fst (tstep t plat (ECall c) s)) fd).
  Proof.
    intros [K Fl Pa Fi] EO. pose proof (tstep_ok t plat Ht _ _ K EO) as K'. revert K'. destruct EO as (CO & On & Cl).
    pose proof (tk_proc _ _ K) as Kp.
    set (B := fun pg => w_vm w pg <> None \/ busy_page t s pg \/ L pg).
    assert (Bl : balanced t B (ts_p s)).
    { split; intros pg; specialize (Pa pg); unfold B; tauto. }
    pose proof (ledger_step t plat Ht B c (ts_p s) Kp CO Bl) as [B1 B2].
    pose proof (fun pg => lost_held t B c (ts_p s) (fst (pstep t plat c (ts_p s))) (snd (pstep t plat c (ts_p s))) pg Bl) as B3.
    pose proof (fun fd => call_fds (ts_p s) c fd Kp CO On) as Fd.
    assert (Cf : forall fd, c = PMap (CClose fd) -> w_fd (pc_w (snd (pstep t plat c (ts_p s)))) fd = None).
    { intros fd ->. cbn. apply put_same. }
    assert (Fo : forall fd, w_fd (pc_w (ts_p s)) fd = None -> c = PMap (CClose fd) \/ c <> PMap (CClose fd)).
    { intros fd _. destruct c as [cc| | | | |]; try (right; discriminate). destruct cc as [| | |x| | | | | | | | | | | | | | |]; try (right; discriminate).
      destruct (Z.eq_dec x fd) as [->|N]; [auto|right; congruence]. }
    cbn [tstep]. destruct (pstep t plat c (ts_p s)) as [x p'] eqn:E. cbn [fst snd] in *. intros K'. split; [exact K'|exact Fl| |].
    - intros pg. specialize (Pa pg). specialize (B1 pg). specialize (B2 pg). specialize (B3 pg). cbn [ts_p].
      assert (Eb : busy_page t {| ts_p := p'; ts_pool := ts_pool s |} pg <-> busy_page t s pg) by reflexivity.
      assert (El : tlost t (ECall c) s (TCall x) {| ts_p := p'; ts_pool := ts_pool s |} pg <-> lost t c (ts_p s) x p' pg).
      { cbn. split; [intros (r & [= <-] & H); exact H|eauto]. }
      rewrite Eb, El. destruct Pa as (_ & P2 & _ & P4). unfold B in B1, B2, B3. clear - B1 B2 B3 P2 P4.
      split; [rewrite B1; clear; tauto|]. split; [|split].
      + intros M. assert (Nl : ~ lost t c (ts_p s) x p' pg) by (clear - M B3; tauto). pose proof (P2 M) as P2'. assert (Nh : ~ holds_page t p' pg) by exact (B2 (or_introl (or_introl M))).
        clear - Nl P2' Nh. tauto.
      + intros Hh. split; intros Q; apply (fun q => B2 q Hh); clear - Q; tauto.
      + intros Hb [Q|Q]; [exact (P4 Hb Q)|]. apply (B3 Q). clear - Hb. tauto.
    - intros fd. destruct (Fi fd) as (F1 & F2 & F3). cbn [given ts_p].
      assert (Eb : forall i, busy_fd {| ts_p := p'; ts_pool := ts_pool s |} i fd <-> busy_fd s i fd) by reflexivity.
      assert (Ec : c = PMap (CClose fd) \/ c <> PMap (CClose fd)).
      { destruct c as [cc| | | | |]; try (right; discriminate). destruct cc as [| | |y| | | | | | | | | | | | | | |]; try (right; discriminate).
        destruct (Z.eq_dec y fd) as [->|N]; [auto|right; congruence]. }
      split; [|split; [|exact F3]].
      + destruct Ec as [Ec|Ec].
        * rewrite (Cf fd Ec). split; [contradiction|]. intros [[[_ N]|[]]|(i & pd & Hi & _ & Hf)]; [destruct (N (f_equal _ Ec))|]. destruct (Cl fd i pd Ec Hi Hf).
        * rewrite (Fd fd Ec). rewrite F1. assert (Ne : ECall c <> ECall (PMap (CClose fd))) by congruence.
          change (exists tid, busy_fd {| ts_p := p'; ts_pool := ts_pool s |} tid fd) with (exists tid, busy_fd s tid fd). tauto.
      + intros i Hi [[Hd _]|[]]. exact (F2 i Hi Hd).
  Qed.

  (** Any event. *)
  Lemma step_counted w s L D e : counted w s L D -> ev_ok t s e ->
    counted w (snd (tstep t plat e s))
      (fun pg => L pg \/ tlost t e s (fst (tstep t plat e s)) (snd (tstep t plat e s)) pg)
      (fun fd => (D fd /\ e <> ECall (PMap (CClose fd))) \/ given (fst (tstep t plat e s)) fd).
  Proof.
    intros IH EO.
    pose proof (tstep_ok t plat Ht e s (ct_ok _ _ _ _ IH) EO) as K'.
    assert (Same : forall x s1, tstep t plat e s = (x, s1) -> counted w s1 L D -> (forall pg, ~ tlost t e s x s1 pg) -> (forall fd, e <> ECall (PMap (CClose fd))) ->
      (forall fd, ~ given x fd) ->
      counted w s1 (fun pg => L pg \/ tlost t e s x s1 pg) (fun fd => (D fd /\ e <> ECall (PMap (CClose fd))) \/ given x fd)).
    { intros x s1 _ C Nl Nc Ng. apply (counted_ext _ _ L D); [exact C| |].
      - intros pg. specialize (Nl pg). tauto.
      - intros fd. specialize (Nc fd). specialize (Ng fd). tauto. }
    destruct e as [c|tid mut o path|tid mut o fd|tid inf hint clock|tid].
    - exact (call_counted w s L D c IH EO).
    - cbn [tstep] in *. unfold begin in *. destruct (ts_pool s tid) eqn:N0; cbn [fst snd] in *.
      + apply (Same TNone s); auto; discriminate.
      + apply (Same TNone); [reflexivity| |intros pg []|discriminate|intros fd []].
        apply begin_counted; auto; [exact Logic.I|intros fd [_ Q]; discriminate Q].
    - cbn [tstep] in *. unfold begin in *. destruct (ts_pool s tid) eqn:N0; cbn [fst snd] in *.
      + apply (Same TNone s); auto; discriminate.
      + apply (Same TNone); [reflexivity| |intros pg []|discriminate|intros x []].
        apply begin_counted; auto; [exact Logic.I|intros x [Q _]; discriminate Q].
    - cbn [tstep] in *. unfold begin in *. destruct (ts_pool s tid) eqn:N0; cbn [fst snd] in *.
      + apply (Same TNone s); auto; discriminate.
      + destruct (size_round (E:=error) t (size_alloc t) hint) as [len|er| | |] eqn:Er; cbn [fst snd] in *.
        2-5: apply Same; auto; discriminate.
        apply (Same TNone); [reflexivity| |intros pg []|discriminate|intros x []].
        apply begin_counted; auto; [exact Logic.I|intros x [_ Q]; discriminate Q].
    - cbn [tstep] in *. destruct (ts_pool s tid) as [pd|] eqn:Hp.
      + pose proof (go_counted w s L D tid pd IH Hp) as C. cbn [tlost] in *. rewrite Hp in *. exact C.
      + cbn [fst snd] in *. apply (Same TNone s); auto; [|discriminate].
        intros pg (pd & Q & _). congruence.
  Qed.
  Theorem ledger_counted w s L D : tledger t plat w s L D -> counted w s L D.
  Proof.
    induction 1 as [W|s L D e H IH EO].
    - split; [exact (idle_ok t w W)|discriminate| |].
      + intros pg. assert (Nb : ~ busy_page t (idle w) pg) by (intros (i & pd & Q & _); discriminate Q).
        assert (Nh : ~ holds_page t (ts_p (idle w)) pg) by (intros [(k & h & Q & _)|(k & l & Q & _)]; discriminate Q).
        cbn [idle ts_p] in *. change (pc_w (fresh w)) with w. tauto.
      + intros fd. split; [|split].
        * split; [auto|]. intros [Q|(i & pd & Q & _)]; [exact Q|discriminate Q].
        * intros i (pd & Q & _). discriminate Q.
        * intros i j (pd & Q & _). discriminate Q.
    - exact (step_counted w s L D e IH EO).
  Qed.
  Theorem ledger_pages w s L D : tledger t plat w s L D -> pages_accounted t w s L.
  Proof. intros H. exact (ct_pages _ _ _ _ (ledger_counted w s L D H)). Qed.
  Theorem ledger_files w s L D : tledger t plat w s L D -> files_accounted s D.
  Proof. intros H. exact (ct_files _ _ _ _ (ledger_counted w s L D H)). Qed.
End Ledger.
