(** Every interleaving keeps maps, rings and rings being allocated apart, and
    the memory of a ring being allocated untouched. *)
From Coq Require Import Lia.
From Verif Require Import Base Spec ErrorModel RingSpec RingModel SizeModel SizeProofs OsModel OthersModel MapModel MapSpec OsProofs MapProofs MapCreate MapOps
  ApiModel ApiSpec OthersProofs ApiProofs RingMapModel RingMapSpec MirrorProofs RingMapClaims RingProofs MemRingModel MemRingProofs
  ProcModel ProcSpec ProcFrame ProcProofs ThreadModel ThreadSpec ThreadFrame.

(** An entry that stays: same place; a private copy may be dropped. *)
Definition stays (e e' : pte) : Prop :=
  same_place e e' /\ (p_copy e' = p_copy e \/ (p_copy e' = None /\ p_shared e = false)).
Lemma stays_refl e : stays e e.
Proof. split; [apply same_place_refl|auto]. Qed.

Lemma pair_eq {A B} (a a' : A) (b b' : B) : (a, b) = (a', b') -> a = a' /\ b = b'.
Proof. intros [= H1 H2]. auto. Qed.
Lemma then_snd {A} (fail : out error A -> outcome) x next : snd (then_ fail x next) = snd x.
Proof. destruct x as [[a|e| | |] w]; reflexivity. Qed.

Section Threads.
  Variable t : target.
  Variable plat : platform.
  Hypothesis Ht : posix_target t.
  Notation P := (t_page t).
  Let Hg : good_target t := proj1 Ht.
  Let HP : 0 < P.
  Proof. exact (pow2_pos _ (proj1 (proj2 Hg))). Qed.
  Let HB : 32 <= t_bits t <= 64.
  Proof. destruct Hg as [[E|E] _]; lia. Qed.

  (** The memory of a ring being allocated: reached through [fd] only, [len]
      zero bytes. *)
  Record mem (w : world) (fd len o : Z) : Prop := {
    mm_pos : 0 <= fd;
    mm_hid : hid fd w o;
    mm_size : o_size (w_obj w o) = len;
    mm_zero : forall i, o_data (w_obj w o) i = 0
  }.
  Definition unseen (w : world) (o : Z) : Prop := forall p e, w_vm w p = Some e -> p_obj e <> o.
  (** The reserved pages; the first [j] of the [2 n] show [o]. *)
  Record half (w : world) (pg n o j : Z) : Prop := {
    hf_n : 0 < n;
    hf_align : pg mod P = 0;
    hf_low : P <= pg;
    hf_high : pg + 2 * (P * n) <= 2 ^ t_bits t - P;
    hf_page : forall k, 0 <= k < 2 * n -> exists e, w_vm w (pg / P + k) = Some e /\
      (k < j -> p_obj e = o /\ p_idx e = k mod n /\ p_r e = true /\ p_w e = true /\ p_shared e = true /\ p_copy e = None);
    hf_only : forall p e, w_vm w p = Some e -> p_obj e = o -> pg / P <= p < pg / P + j
  }.

  Definition fd_open (w : world) (fd : Z) : Prop := exists f, w_fd w fd = Some f.
  Definition pend_ok (w : world) (pd : pending) : Prop :=
    match pd with
    | MOpen _ o path => options_ok t o /\ 0 <= path
    | MStat _ _ o fd => options_ok t o /\ fd_open w fd
    | MCut _ _ o fd l | MSize _ _ o fd l | MMap _ _ o fd l => options_ok t o /\ fd_open w fd /\ is_usize t l
    | MClose fd _ => fd_open w fd
    | ROpen _ len _ _ pb => is_usize t len /\ len mod P = 0 /\ good_buf pb
    | RUnlink _ len fd path => is_usize t len /\ len mod P = 0 /\ path < 0 /\ exists o, mem w fd 0 o /\ unseen w o
    | RSize _ len fd => is_usize t len /\ len mod P = 0 /\ exists o, mem w fd 0 o /\ unseen w o
    | RReserve _ len fd => exists n o, len = P * n /\ 0 <= len < 2 ^ (t_bits t - 1) /\ mem w fd len o /\ unseen w o
    | RFirst _ len fd pg => exists n o, len = P * n /\ mem w fd len o /\ half w pg n o 0
    | RSecond _ len fd pg => exists n o, len = P * n /\ mem w fd len o /\ half w pg n o n
    | RUndo len fd pg _ => exists n o j, len = P * n /\ j <= 2 * n /\ mem w fd len o /\ half w pg n o j
    | RClose _ len fd (Ret pg) => exists n o, len = P * n /\ mem w fd len o /\ half w pg n o (2 * n)
    | RClose _ _ fd _ => fd_open w fd
    end.

  (** What a step of others leaves alone. *)
  Record keeps (pd : pending) (w w' : world) : Prop := {
    kp_fd : forall fd, pd_fd pd = Some fd -> w_fd w' fd = w_fd w fd;
    kp_hid : forall fd o, pd_owns pd = true -> pd_fd pd = Some fd -> 0 <= fd -> hid fd w o ->
      (forall p e, w_vm w p = Some e -> p_obj e = o -> pd_page t pd p) -> hsafe' fd o w w';
    kp_vm : forall q e, pd_page t pd q -> w_vm w q = Some e -> exists e', w_vm w' q = Some e' /\ stays e e'
  }.

  Lemma mem_kept w w' fd len o : mem w fd len o -> hsafe' fd o w w' -> mem w' fd len o.
  Proof. intros [A B C D] [E F G H]. split; try assumption; [congruence|]. intros i. rewrite G. apply D. Qed.
  Lemma unseen_kept w w' fd o : unseen w o -> hsafe' fd o w w' -> unseen w' o.
  Proof. intros U [_ _ _ V] p e He Ho. destruct (V p e He Ho) as (e0 & H0 & H1). exact (U p e0 H0 H1). Qed.
  Lemma half_kept w w' fd pg n o j : half w pg n o j -> hsafe' fd o w w' ->
    (forall k e, 0 <= k < 2 * n -> w_vm w (pg / P + k) = Some e -> exists e', w_vm w' (pg / P + k) = Some e' /\ stays e e') ->
    half w' pg n o j.
  Proof.
    intros [A B C D E F] [_ _ _ V] K. split; try assumption.
    - intros k Hk. destruct (E k Hk) as (e & He & Hj). destruct (K k e Hk He) as (e' & He' & (B1 & B2 & B3 & B4 & _ & B5 & _) & Cc).
      exists e'. split; [exact He'|]. intros L. destruct (Hj L) as (A1 & A2 & A3 & A4 & A5 & A6).
      do 5 (split; [congruence|]). destruct Cc as [Cc|[Cc _]]; congruence.
    - intros p e' He Ho. destruct (V p e' He Ho) as (e & E0 & E1). exact (F p e E0 E1).
  Qed.
  (** Pages of a reservation, counted from its start. *)
  Lemma addr_page pg n k : 0 < n -> pg mod P = 0 -> (pg <= P * k < pg + 2 * (P * n) <-> pg / P <= k < pg / P + 2 * n).
  Proof.
    intros Hn Ha. rewrite <- (page_in t Hg pg n (P * k) Hn Ha).
    replace (P * k / P) with k by (rewrite Z.mul_comm, Z.div_mul by lia; reflexivity). reflexivity.
  Qed.
  Lemma half_page w pg n o j k : half w pg n o j -> (pg <= P * k < pg + 2 * (P * n) <-> pg / P <= k < pg / P + 2 * n).
  Proof. intros H. exact (addr_page _ _ _ (hf_n _ _ _ _ _ H) (hf_align _ _ _ _ _ H)). Qed.
  Lemma half_mapped w pg n o j k : half w pg n o j -> pg <= P * k < pg + 2 * (P * n) -> exists e, w_vm w k = Some e.
  Proof.
    intros H Hk. apply (half_page _ _ _ _ _ _ H) in Hk. destruct (hf_page _ _ _ _ _ H (k - pg / P) ltac:(lia)) as (e & He & _).
    exists e. replace k with (pg / P + (k - pg / P)) by lia. exact He.
  Qed.

  Lemma pend_mapped w pd q : pend_ok w pd -> pd_page t pd q -> exists e, w_vm w q = Some e.
  Proof.
    unfold pd_page, pd_addr. destruct pd; cbn [pend_ok]; try contradiction.
    - intros (n & o & -> & _ & H). exact (half_mapped _ _ _ _ _ _ H).
    - intros (n & o & -> & _ & H). exact (half_mapped _ _ _ _ _ _ H).
    - intros (n & o & j & -> & _ & _ & H). exact (half_mapped _ _ _ _ _ _ H).
    - destruct r as [pg|e| | |]; try contradiction. intros (n & o & -> & _ & H). exact (half_mapped _ _ _ _ _ _ H).
  Qed.
  Lemma pend_open w pd fd : pend_ok w pd -> pd_fd pd = Some fd -> fd_open w fd.
  Proof.
    assert (M : forall len o, mem w fd len o -> fd_open w fd) by (intros len o H; eexists; exact (hd_own _ _ _ (mm_hid _ _ _ _ H))).
    destruct pd; cbn [pend_ok pd_fd]; intros H; try discriminate; intros [= <-]; try tauto.
    - destruct H as (_ & _ & _ & o & H & _). exact (M _ _ H).
    - destruct H as (_ & _ & o & H & _). exact (M _ _ H).
    - destruct H as (n & o & _ & _ & H & _). exact (M _ _ H).
    - destruct H as (n & o & _ & H & _). exact (M _ _ H).
    - destruct H as (n & o & _ & H & _). exact (M _ _ H).
    - destruct H as (n & o & j & _ & _ & H & _). exact (M _ _ H).
    - destruct r as [pg|e| | |]; try exact H. destruct H as (n & o & _ & H & _). exact (M _ _ H).
  Qed.

  Lemma pend_kept pd w w' : pend_ok w pd -> keeps pd w w' -> pend_ok w' pd.
  Proof.
    intros H [Kf Kh Kv].
    assert (O : forall fd, pd_fd pd = Some fd -> fd_open w fd -> fd_open w' fd) by (intros fd E [f Hf]; exists f; rewrite (Kf fd E); exact Hf).
    assert (U : forall fd len o, pd_owns pd = true -> pd_fd pd = Some fd -> mem w fd len o -> unseen w o -> mem w' fd len o /\ unseen w' o).
    { intros fd len o Ow E M U. assert (S : hsafe' fd o w w').
      { apply Kh; try assumption; [exact (mm_pos _ _ _ _ M)|exact (mm_hid _ _ _ _ M)|]. intros p e He Ho. destruct (U p e He Ho). }
      split; [exact (mem_kept _ _ _ _ _ M S)|exact (unseen_kept _ _ _ _ U S)]. }
    assert (G : forall fd n o pg j, pd_owns pd = true -> pd_fd pd = Some fd -> mem w fd (P * n) o -> half w pg n o j -> j <= 2 * n ->
              (forall q, pg <= P * q < pg + 2 * (P * n) -> pd_page t pd q) -> mem w' fd (P * n) o /\ half w' pg n o j).
    { intros fd n o pg j Ow E M F Hj Pg. assert (S : hsafe' fd o w w').
      { apply Kh; try assumption; [exact (mm_pos _ _ _ _ M)|exact (mm_hid _ _ _ _ M)|]. intros p e He Ho. apply Pg.
        apply (half_page _ _ _ _ _ _ F). pose proof (hf_only _ _ _ _ _ F p e He Ho). lia. }
      split; [exact (mem_kept _ _ _ _ _ M S)|]. apply (half_kept w w' fd); try assumption. intros k e Hk He. apply Kv; [|exact He].
      apply Pg, (half_page _ _ _ _ _ _ F). lia. }
    destruct pd; cbn [pend_ok] in *; try exact H.
    - destruct H as [A B]. eauto.
    - destruct H as (A & B & C). eauto.
    - destruct H as (A & B & C). eauto.
    - destruct H as (A & B & C). eauto.
    - eauto.
    - destruct H as (A & B & C & o & M & N). do 3 (split; [assumption|]). exists o. eauto.
    - destruct H as (A & B & o & M & N). do 2 (split; [assumption|]). exists o. eauto.
    - destruct H as (n & o & A & B & M & N). exists n, o. split; [assumption|]. split; [assumption|]. eauto.
    - destruct H as (n & o & -> & M & F). exists n, o. split; [reflexivity|]. pose proof (hf_n _ _ _ _ _ F). apply G; auto; lia.
    - destruct H as (n & o & -> & M & F). exists n, o. split; [reflexivity|]. pose proof (hf_n _ _ _ _ _ F). apply G; auto; lia.
    - destruct H as (n & o & j & -> & Hj & M & F). exists n, o, j. split; [reflexivity|]. split; [exact Hj|]. apply G; auto.
    - destruct r as [pg|e| | |]; eauto. destruct H as (n & o & -> & M & F). exists n, o. split; [reflexivity|]. apply G; auto. lia.
  Qed.

  (** ** One stage *)
  Record staged (pd : pending) (w w' : world) (out : outcome) : Prop := {
    st_wf : wf w';
    st_vm : forall q e, ~ pd_page t pd q -> w_vm w q = Some e -> exists e', w_vm w' q = Some e' /\ stays e e';
    st_fd : forall fd f, w_fd w fd = Some f -> (pd_owns pd = true -> pd_fd pd <> Some fd) -> w_fd w' fd = Some f;
    st_safe : forall o, safe o w w';
    st_hid : forall x o, 0 <= x -> pd_fd pd <> Some x -> hsafe x o w w';
    st_out : match out with
      | More pd' => pend_ok w' pd' /\ (forall q, pd_page t pd' q -> pd_page t pd q \/ w_vm w q = None) /\
          ((pd_owns pd' = pd_owns pd /\ pd_fd pd' = pd_fd pd) \/ (forall fd, pd_fd pd' = Some fd -> w_fd w fd = None))
      | MadeMap mut own o fd m =>
          (exists f, w_fd w fd = Some f /\ file_live mut o w' fd m =
             {| l_map := m; l_mut := mut; l_obj := fd_obj f; l_off := op_offset o; l_prot := op_protect o; l_wr := fd_w f |} /\
             backed t w' m (fd_obj f) (op_offset o) (prot_shares (op_protect o)) (negb (prot_shares (op_protect o)) || fd_w f)) /\
          (forall q, own_page t m q -> w_vm w q = None)
      | MadeRing inf pg len => exists n o, at_home t w' (new_held inf pg len) n o (fun _ => 0) /\ h_fit t (new_held inf pg len) /\
          (forall q, ring_page t (new_held inf pg len) q -> pd_page t pd q)
      | Over _ => True
      end
  }.

  Lemma adv_safe pd w o : wf w -> pend_ok w pd -> safe o w (snd (advance t plat pd w)).
  Proof.
    intros W H. destruct pd; cbn [advance]; rewrite ?then_snd.
    - apply safely_io, safely_file_open, H.
    - apply (safely_bind o _ _ (safely_io o _ (safely_file_len o fd))). intros. apply safely_ret.
    - destruct (_ && _); [apply safely_resize_to|apply safely_ret].
    - apply safely_size_part.
    - apply safely_map_part.
    - apply safely_close.
    - destruct plat; rewrite ?then_snd; [apply safely_os, safely_memfd|].
      destruct (shm_name _ _) as [[name pb']|e| | |]; try apply safe_refl.
      pose proof (safely_open t o (shm_path name) true true true false (or_intror (conj eq_refl eq_refl)) w) as S.
      destruct (sys_open t (shm_path name) true true true false w) as [[fd|e| | |] w1]; try exact S.
      cbv zeta. destruct (raw_os_error _) as [c|]; [|exact S]. destruct (c =? EEXIST); exact S.
    - apply safely_unlink.
    - pose proof (safely_ftruncate t o fd (as_signed t len) w) as S. destruct (sys_ftruncate _ _ _ w) as [[a|e| | |] w1]; exact S.
    - destruct (umul t len 2) as [full|e| | |]; try apply safe_refl. rewrite then_snd. apply safely_ring_mmap.
    - pose proof (safely_ring_mmap t o RingPrimary true pg len true false fd w) as S.
      destruct (ring_mmap _ _ _ _ _ _ _ _ w) as [[a|e| | |] w1]; exact S.
    - pose proof (safely_ring_mmap t o RingSecondary true (ptr_add t pg len) len true false fd w) as S.
      destruct (ring_mmap _ _ _ _ _ _ _ _ w) as [[a|e| | |] w1]; exact S.
    - pose proof (safely_ignore o _ (safely_unmap_ring t o pg len) w) as S. destruct (ignore _ w) as [[a|e'| | |] w1]; exact S.
    - destruct r; apply safely_close.
  Qed.
  Lemma adv_hid pd w x o : wf w -> pend_ok w pd -> 0 <= x -> pd_fd pd <> Some x -> hsafe x o w (snd (advance t plat pd w)).
  Proof.
    intros W H Hx N. destruct pd; cbn [advance pd_fd] in *; rewrite ?then_snd; try (assert (Nf : fd <> x) by congruence).
    - apply hsafely_io, hsafely_file_open; [exact Hx|apply H].
    - apply (hsafely_bind x o _ _ (hsafely_io x o _ (hsafely_file_len x o fd))). intros. apply hsafely_ret.
    - destruct (_ && _); [apply hsafely_resize_to, Nf|apply hsafely_ret].
    - apply hsafely_size_part, Nf.
    - apply hsafely_map_part, Nf.
    - apply hsafely_close, Nf.
    - destruct plat; rewrite ?then_snd; [apply hsafely_os, hsafely_memfd|].
      destruct (shm_name _ _) as [[name pb']|e| | |]; try apply hsafe_refl.
      pose proof (hsafely_open t x o Hx (shm_path name) true true true false (or_intror (conj eq_refl eq_refl)) w) as S.
      destruct (sys_open t (shm_path name) true true true false w) as [[fd|e| | |] w1]; try exact S.
      cbv zeta. destruct (raw_os_error _) as [c|]; [|exact S]. destruct (c =? EEXIST); exact S.
    - apply hsafely_unlink.
    - pose proof (hsafely_ftruncate t x o fd (as_signed t len) Nf w) as S. destruct (sys_ftruncate _ _ _ w) as [[a|e| | |] w1]; exact S.
    - destruct (umul t len 2) as [full|e| | |]; try apply hsafe_refl. rewrite then_snd. apply hsafely_os, hsafely_mmap. auto.
    - pose proof (hsafely_os x o RingPrimary _ (hsafely_mmap t x o true pg len PRW true false fd 0 (or_intror Nf)) w) as S.
      fold (ring_mmap t RingPrimary true pg len true false fd) in S. destruct (ring_mmap _ _ _ _ _ _ _ _ w) as [[a|e| | |] w1]; exact S.
    - pose proof (hsafely_os x o RingSecondary _ (hsafely_mmap t x o true (ptr_add t pg len) len PRW true false fd 0 (or_intror Nf)) w) as S.
      fold (ring_mmap t RingSecondary true (ptr_add t pg len) len true false fd) in S. destruct (ring_mmap _ _ _ _ _ _ _ _ w) as [[a|e| | |] w1]; exact S.
    - pose proof (hsafely_ignore x o _ (hsafely_unmap_ring t x o pg len) w) as S. destruct (ignore _ w) as [[a|e'| | |] w1]; exact S.
    - destruct r; apply hsafely_close, Nf.
  Qed.

  (** The parts of [staged] that are proved stage by stage. *)
  Definition local (pd : pending) (w w' : world) (out : outcome) : Prop :=
    wf w' /\
    (forall q e, ~ pd_page t pd q -> w_vm w q = Some e -> exists e', w_vm w' q = Some e' /\ stays e e') /\
    (forall fd f, w_fd w fd = Some f -> (pd_owns pd = true -> pd_fd pd <> Some fd) -> w_fd w' fd = Some f) /\
    match out with
      | More pd' => pend_ok w' pd' /\ (forall q, pd_page t pd' q -> pd_page t pd q \/ w_vm w q = None) /\
          ((pd_owns pd' = pd_owns pd /\ pd_fd pd' = pd_fd pd) \/ (forall fd, pd_fd pd' = Some fd -> w_fd w fd = None))
      | MadeMap mut own o fd m =>
          (exists f, w_fd w fd = Some f /\ file_live mut o w' fd m =
             {| l_map := m; l_mut := mut; l_obj := fd_obj f; l_off := op_offset o; l_prot := op_protect o; l_wr := fd_w f |} /\
             backed t w' m (fd_obj f) (op_offset o) (prot_shares (op_protect o)) (negb (prot_shares (op_protect o)) || fd_w f)) /\
          (forall q, own_page t m q -> w_vm w q = None)
      | MadeRing inf pg len => exists n o, at_home t w' (new_held inf pg len) n o (fun _ => 0) /\ h_fit t (new_held inf pg len) /\
          (forall q, ring_page t (new_held inf pg len) q -> pd_page t pd q)
      | Over _ => True
      end.

  Lemma quiet_vm w w' : quiet w w' -> forall q e, w_vm w q = Some e -> exists e', w_vm w' q = Some e' /\ stays e e'.
  Proof. intros Q q e He. exists e. rewrite (q_vm _ _ Q). split; [exact He|apply stays_refl]. Qed.
  Lemma same_vm w w' : w_vm w' = w_vm w -> forall q e, w_vm w q = Some e -> exists e', w_vm w' q = Some e' /\ stays e e'.
  Proof. intros Q q e He. exists e. rewrite Q. split; [exact He|apply stays_refl]. Qed.
  Lemma extends_vm w w' : extends w w' -> forall q e, w_vm w q = Some e -> exists e', w_vm w' q = Some e' /\ stays e e'.
  Proof. intros X q e He. destruct (ex_vm _ _ X q e He) as (e' & H & S). exists e'. split; [exact H|exact S]. Qed.
  Lemma quiet_open w w' fd : quiet w w' -> fd_open w fd -> fd_open w' fd.
  Proof. intros Q [f Hf]. exists f. rewrite (q_fd _ _ Q). exact Hf. Qed.

  (** A failed map stage. *)
  Lemma map_failed {A} pd own fd (r : out error A) w w' : wf w -> quiet w w' -> fd_open w fd -> pd_fd pd = Some fd -> pd_owns pd = own ->
    local pd w w' (map_fail own fd r).
  Proof.
    intros W Q O E1 E2. split; [exact (wf_quiet _ _ W Q)|]. split; [intros q e _; apply (quiet_vm _ _ Q)|].
    split; [intros x f Hf _; rewrite (q_fd _ _ Q); exact Hf|]. unfold map_fail. destruct own; [|exact Logic.I].
    split; [exact (quiet_open _ _ _ Q O)|]. split; [intros q []|]. left. cbn. rewrite E1, E2. auto.
  Qed.

  (** A step of the length: nothing, or a resize. *)
  Lemma length_stage (m : ST error Z) fd w r w' : m w = (r, w') ->
    (m = resize_to t fd 0 \/ (exists sz, is_usize t sz /\ m = resize_to t fd sz) \/ exists l, is_usize t l /\ m = sret l) ->
    match r with
    | Ret l => is_usize t l /\ exists o, touched o w w' /\ (o_size (w_obj w' o) = o_size (w_obj w o) \/ is_usize t (o_size (w_obj w' o)))
    | Err e => quiet w w'
    | _ => False
    end.
  Proof.
    assert (U0 : is_usize t 0) by (split; [lia|apply Z.pow_pos_nonneg; lia]).
    assert (K : forall sz, is_usize t sz -> resize_to t fd sz w = (r, w') ->
      match r with
      | Ret l => is_usize t l /\ exists o, touched o w w' /\ (o_size (w_obj w' o) = o_size (w_obj w o) \/ is_usize t (o_size (w_obj w' o)))
      | Err e => quiet w w'
      | _ => False
      end).
    { intros sz Hs E. apply (resize_to_spec t Ht) in E; [|exact Hs]. destruct r as [l|e| | |]; try contradiction.
      - destruct E as (-> & f & orc & _ & _ & ->). split; [exact Hs|]. exists (fd_obj f). split; [apply resize_touched|]. right.
        destruct (resize_obj_spec t (fd_obj f) sz (set_orc w orc)) as (_ & _ & _ & _ & _ & -> & _). exact Hs.
      - apply E. }
    intros E [->|[(sz & Hs & ->)|(l & Hl & ->)]].
    - exact (K 0 U0 E).
    - exact (K sz Hs E).
    - injection E as <- <-. split; [exact Hl|]. exists 0. split; [apply touched_refl|]. left. reflexivity.
  Qed.
  Lemma touched_local pd own fd next w w' o : wf w -> touched o w w' ->
    (o_size (w_obj w' o) = o_size (w_obj w o) \/ is_usize t (o_size (w_obj w' o))) -> pend_ok w' next ->
    pd_fd pd = Some fd -> pd_owns pd = own -> pd_fd next = Some fd -> pd_owns next = own -> (forall q, ~ pd_page t next q) ->
    local pd w w' (More next).
  Proof.
    intros W T S N E1 E2 E3 E4 F. split; [exact (wf_touched t Ht _ _ _ W T S)|].
    split; [intros q e _; apply (extends_vm _ _ (touched_extends _ _ _ T))|].
    split; [intros x f Hf _; rewrite (tc_fd _ _ _ T); exact Hf|]. split; [exact N|]. split; [intros q Hq; destruct (F q Hq)|].
    left. split; congruence.
  Qed.

  Lemma fresh_unseen w : wf w -> unseen w (w_next w).
  Proof. intros W p e He Ho. apply (wf_vm _ W) in He. lia. Qed.
  (** The new memory, however it was opened. *)
  Lemma opened_mem w w' fd : wf w -> opened w w' fd -> (forall path, 0 <= path -> w_fs w' path = w_fs w path) ->
    mem w' fd 0 (w_next w) /\ unseen w' (w_next w).
  Proof.
    intros W [A B C D E F] S. split; [split|].
    - exact B.
    - split; [lia|rewrite C; apply put_same| |].
      + intros x f Hx Hf. rewrite C, put_other in Hf by exact Hx. apply (wf_fd _ W) in Hf. lia.
      + intros path Hp. rewrite (S path Hp). intros Eo. apply (wf_fs _ W) in Eo. lia.
    - rewrite E, put_same. reflexivity.
    - intros i. rewrite E, put_same. reflexivity.
    - intros p e. rewrite D. apply (fresh_unseen _ W).
  Qed.

  Lemma adv_local pd w out w' : wf w -> pend_ok w pd -> advance t plat pd w = (out, w') -> local pd w w' out.
  Proof.
    intros W H E. destruct pd; cbn [advance pend_ok] in *.
    - (* MOpen *)
      destruct H as [O Hp]. unfold io_call in E. destruct (file_open t (op_open o) path w) as [r w1] eqn:Eo. apply file_open_spec in Eo.
      destruct r as [fd|e| | |]; try contradiction Eo; injection E as <- <-.
      + destruct Eo as [_ Eo]. destruct (open_extends t _ _ _ _ _ _ _ _ W Eo) as (X & W1 & ob & F1 & F0 & _).
        split; [exact W1|]. split; [intros q e _; apply (extends_vm _ _ X)|]. split.
        * intros x f Hf _. rewrite F1, put_other; [exact Hf|congruence].
        * split; [split; [exact O|]; eexists; rewrite F1; apply put_same|]. split; [intros q []|]. right. intros x [= <-]. exact F0.
      + split; [exact (wf_quiet _ _ W Eo)|]. split; [intros q x _; apply (quiet_vm _ _ Eo)|].
        split; [intros x f Hf _; rewrite (q_fd _ _ Eo); exact Hf|exact Logic.I].
    - (* MStat *)
      destruct H as [O Hf]. unfold sbind, io_call, file_len in E. destruct (sys_fstat fd w) as [r w1] eqn:Es. apply fstat_spec in Es as [Q Es].
      destruct r as [l|e| | |]; try contradiction Es; cbn in E; injection E as <- <-.
      + split; [exact (wf_quiet _ _ W Q)|]. split; [intros q x _; apply (quiet_vm _ _ Q)|].
        split; [intros x f Hx _; rewrite (q_fd _ _ Q); exact Hx|]. split; [|split; [intros q []|left; auto]].
        split; [exact O|]. split; [exact (quiet_open _ _ _ Q Hf)|]. apply Z.mod_pos_bound. apply Z.pow_pos_nonneg; lia.
      + apply map_failed; auto.
    - (* MCut *)
      destruct H as (O & Hf & Hl).
      set (x := if op_truncate o && (0 <? flen) then resize_to t fd 0 else sret flen) in E.
      assert (C : x = resize_to t fd 0 \/ (exists sz, is_usize t sz /\ x = resize_to t fd sz) \/ exists l, is_usize t l /\ x = sret l)
        by (unfold x; destruct (op_truncate o && (0 <? flen)); eauto).
      clearbody x. destruct (x w) as [r w1] eqn:Er.
      pose proof (length_stage _ fd _ _ _ Er C) as L. destruct r as [l|e| | |]; try contradiction L; cbn in E; injection E as <- <-.
      + destruct L as (U & ob & T & S).
        apply (touched_local _ own fd _ _ _ ob); auto. split; [exact O|]. split; [|exact U]. destruct Hf as [f Hf]. exists f. rewrite (tc_fd _ _ _ T). exact Hf.
      + apply map_failed; auto.
    - (* MSize *)
      destruct H as (O & Hf & Hl). destruct (size_part t o fd flen w) as [r w1] eqn:Er.
      assert (C : size_part t o fd flen = resize_to t fd 0 \/ (exists sz, is_usize t sz /\ size_part t o fd flen = resize_to t fd sz) \/
                  exists l, is_usize t l /\ size_part t o fd flen = sret l).
      { pose proof (proj1 O) as Or. unfold size_part. destruct (op_resize o) as [|sz|sz|sz]; cbn [extent_ok] in Or.
        - eauto.
        - eauto.
        - destruct (_ <? _); eauto.
        - destruct (_ <? _); eauto. }
      pose proof (length_stage _ fd _ _ _ Er C) as L. destruct r as [l|e| | |]; try contradiction L; cbn in E; injection E as <- <-.
      + destruct L as (U & ob & T & S).
        apply (touched_local _ own fd _ _ _ ob); auto. split; [exact O|]. split; [|exact U]. destruct Hf as [f Hf]. exists f. rewrite (tc_fd _ _ _ T). exact Hf.
      + apply map_failed; auto.
    - (* MMap *)
      destruct H as (O & [f Hf] & Hl). destruct (map_part t o fd flen w) as [r w1] eqn:Er.
      apply (map_stage_spec t Ht _ _ _ _ _ _ _ O Hf Hl) in Er.
      destruct r as [[m|]|e| | |]; try contradiction Er; cbn in E; injection E as <- <-.
      + destruct Er as (_ & _ & _ & C & SF). pose proof (wf_fd _ W _ _ Hf) as [_ Wo].
        split.
        { apply (created_wf t w w1 m _ _ _ _ W C); try apply SF; rewrite ?(sf_next _ _ SF); try lia. intros ob. left. rewrite (sf_obj _ _ SF). reflexivity. }
        split; [intros q e _ He; exists e; split; [exact (created_keeps t _ _ _ _ _ _ _ _ _ C He)|apply stays_refl]|].
        split; [intros x g Hg' _; rewrite (sf_fd _ _ SF); exact Hg'|]. split; [|exact (cr_free _ _ _ _ _ _ _ _ C)].
        exists f. split; [exact Hf|]. split; [|exact (cr_backed _ _ _ _ _ _ _ _ C)].
        unfold file_live, fd_object, fd_writes. rewrite (sf_fd _ _ SF), Hf. reflexivity.
      + destruct Er as [-> _]. split; [exact W|]. split; [intros q e _; apply same_vm; reflexivity|]. split; [auto|exact Logic.I].
      + apply map_failed; auto; [apply Er|exists f; exact Hf].
    - (* MClose *)
      apply pair_eq in E as [<- <-]. destruct (close_extends fd w W) as (X & W1 & _ & _ & _ & _ & F1). cbv zeta in *.
      split; [exact W1|]. split; [intros q e _; apply (extends_vm _ _ X)|]. split; [|exact Logic.I].
      intros x f Hf Nx. rewrite F1, put_other; [exact Hf|]. intros ->. apply (Nx eq_refl). reflexivity.
    - (* ROpen *)
      destruct H as (U & D & Gb).
      assert (New : forall fd w1 next, opened w w1 fd -> wf w1 -> pend_ok w1 next -> pd_fd next = Some fd -> (forall q, ~ pd_page t next q) ->
                local (ROpen inf len clock round pb) w w1 (More next)).
      { intros fd w1 next On W1 N E1 F. split; [exact W1|]. split; [intros q e _; apply same_vm, (on_vm _ _ _ On)|]. split.
        - intros x f Hf _. rewrite (on_fd _ _ _ On), put_other; [exact Hf|]. pose proof (on_fd0 _ _ _ On). congruence.
        - split; [exact N|]. split; [intros q Hq; destruct (F q Hq)|]. right. intros x Hx. rewrite E1 in Hx. injection Hx as <-. exact (on_fd0 _ _ _ On). }
      assert (Qu : forall w1 r, quiet w w1 -> local (ROpen inf len clock round pb) w w1 (Over r)).
      { intros w1 r Q. split; [exact (wf_quiet _ _ W Q)|]. split; [intros q x _; apply (quiet_vm _ _ Q)|].
        split; [intros x f Hx _; rewrite (q_fd _ _ Q); exact Hx|exact Logic.I]. }
      destruct plat.
      + unfold os_call in E. destruct (sys_memfd w) as [r w1] eqn:Em. pose proof (wfly_memfd w W) as [W1 _]. rewrite Em in W1. cbn [snd] in W1.
        apply memfd_spec in Em. destruct r as [fd|e| | |]; try contradiction Em; cbn in E; injection E as <- <-; [|apply Qu, Em].
        destruct Em as (On & Fs & _). apply (New fd); auto; try (intros q []).
        split; [exact U|]. split; [exact D|]. exists (w_next w). apply opened_mem; auto. intros p _. rewrite Fs. reflexivity.
      + rewrite (shm_name_spec _ _ Gb) in E. destruct (clock round <? 0); [injection E as <- <-; apply Qu, quiet_refl|].
        pose proof (shm_path_neg (clock round)) as Hn. set (path := shm_path (name_for (clock round))) in *.
        destruct (sys_open t path true true true false w) as [r w1] eqn:Eo. pose proof (wfly_open_new t path Hn w W) as [W1 Fs]. rewrite Eo in W1, Fs. cbn [snd] in W1, Fs.
        apply open_new_spec in Eo. destruct r as [fd|e| | |]; try contradiction Eo.
        * injection E as <- <-. destruct Eo as (On & _ & _ & _). apply (New fd); auto; try (intros q []).
          split; [exact U|]. split; [exact D|]. split; [exact Hn|]. exists (w_next w). apply opened_mem; auto.
        * cbv zeta in E. destruct Eo as [Q _]. destruct (raw_os_error _) as [c|]; [|injection E as <- <-; apply Qu, Q].
          destruct (c =? EEXIST); injection E as <- <-; [|apply Qu, Q].
          destruct (Qu _ (TNone) Q) as (A1 & A2 & A3 & _). split; [exact A1|]. split; [exact A2|]. split; [exact A3|].
          split; [split; [exact U|]; split; [exact D|exact (name_good (clock round))]|]. split; [intros q []|]. left. auto.
    - (* RUnlink *)
      destruct H as (U & D & Hp & o & M & N). apply pair_eq in E as [<- <-]. pose proof (wfly_unlink path Hp w W) as [W1 _].
      assert (K : w_vm (snd (sys_shm_unlink path w)) = w_vm w /\ w_fd (snd (sys_shm_unlink path w)) = w_fd w /\ w_obj (snd (sys_shm_unlink path w)) = w_obj w /\
                  w_next (snd (sys_shm_unlink path w)) = w_next w /\ forall q, 0 <= q -> w_fs (snd (sys_shm_unlink path w)) q = w_fs w q).
      { unfold sys_shm_unlink, ask. destruct (w_orc w) as [|[e|a] q]; cbn; auto 10. destruct (w_fs w path); cbn; auto 10.
        do 4 (split; [reflexivity|]). intros x Hx. apply put_other. lia. }
      destruct K as (K1 & K2 & K3 & K4 & K5). split; [exact W1|]. split; [intros q e _; apply same_vm, K1|].
      split; [intros x f Hf _; rewrite K2; exact Hf|]. split; [|split; [intros q []|left; auto]].
      split; [exact U|]. split; [exact D|]. exists o. destruct M as [M1 [M2 M3 M4 M5] M6 M7]. split; [split|]; rewrite ?K3; auto.
      + split; rewrite ?K2, ?K4; auto. intros q Hq. rewrite (K5 q Hq). apply M5, Hq.
      + intros p e. rewrite K1. apply N.
    - (* RSize *)
      destruct H as (U & D & o & M & N). destruct (sys_ftruncate t fd (as_signed t len) w) as [r w1] eqn:Ef.
      assert (Hs : as_signed t len < 2 ^ 64) by (destruct (signed_64 t ltac:(lia) ltac:(lia) len) as [|L]; [assumption|destruct U; lia]).
      pose proof (wfly_ftruncate t fd (as_signed t len) Hs w W) as [W1 _]. rewrite Ef in W1. cbn [snd] in W1.
      apply ftruncate_spec in Ef. pose proof M as [M1 M2 M6 M7]. destruct r as [x|e| | |]; try contradiction Ef; injection E as <- <-.
      + destruct Ef as (f & orc & Hf & _ & H0 & ->). rewrite (hd_own _ _ _ M2) in Hf. injection Hf as <-. cbn [fd_obj] in *.
        assert (Es : as_signed t len = len /\ len < 2 ^ (t_bits t - 1)).
        { unfold as_signed in *. destruct (Z.ltb_spec len (2 ^ (t_bits t - 1))); [auto|]. destruct U. lia. }
        destruct Es as [Es Hl]. rewrite Es in *.
        pose proof (resize_touched t o len w orc) as T.
        destruct (resize_obj_spec t o len (set_orc w orc)) as (_ & _ & _ & _ & _ & Sz & Da & _). cbn [w_obj set_orc] in Da.
        split; [exact W1|]. split; [intros q e _; apply (extends_vm _ _ (touched_extends _ _ _ T))|].
        split; [intros y f Hf _; rewrite (tc_fd _ _ _ T); exact Hf|]. split; [|split; [intros q []|left; auto]].
        exists (len / P), o. pose proof (Z.div_mod len P ltac:(lia)). split; [lia|]. split; [lia|]. split.
        * split; [exact M1| |exact Sz|].
          -- destruct M2 as [A1 A2 A3 A4]. split; rewrite ?(tc_next _ _ _ T), ?(tc_fd _ _ _ T), ?(tc_fs _ _ _ T); assumption.
          -- intros i. rewrite Da, M7. destruct (_ <? _); reflexivity.
        * intros p e He. pose proof (tc_vm _ _ _ T p) as V. rewrite He in V. destruct (w_vm w p) as [e0|] eqn:E0; [|contradiction].
          destruct V as [[V _] _]. rewrite V. exact (N p e0 E0).
      + split; [exact W1|]. split; [intros q y _; apply (quiet_vm _ _ Ef)|]. split; [intros y f Hf _; rewrite (q_fd _ _ Ef); exact Hf|].
        split; [|split; [intros q []|left; auto]]. apply (quiet_open _ _ _ Ef). eexists. exact (hd_own _ _ _ M2).
    - (* RReserve *)
      destruct H as (n & o & Hn & Hl & M & N). pose proof (bits_half t Hg) as [B1 B2].
      assert (Em : umul (E:=error) t len 2 = Ret (2 * len)) by (unfold umul; rewrite wrap_in by lia; f_equal; lia).
      rewrite Em in E. destruct (ring_mmap t RingAllocate false 0 (2 * len) false true (-1) w) as [r w1] eqn:Er.
      pose proof (wfly_ring_mmap t ltac:(lia) ltac:(lia) HP RingAllocate false 0 (2 * len) false true (-1) w W) as [W1 _]. rewrite Er in W1. cbn [snd] in W1.
      unfold ring_mmap in Er. apply os_call_inv in Er. pose proof M as [M1 M2 M6 M7].
      destruct r as [pg|e| | |]; try (apply mmap_spec in Er; contradiction Er); cbn in E; injection E as <- <-.
      + apply mmap_spec in Er as (_ & _ & Mp & N1 & O1). pose proof Mp as [L0 Rg Fr V Fd Fs]. apply range_ok_iff in Rg as (R1 & R2 & R3).
        assert (En : npages t (2 * len) = 2 * n) by (rewrite Hn; replace (2 * (P * n)) with (P * (2 * n)) by lia; apply npages_mul, HP).
        rewrite En in *. assert (Hn0 : 0 < n) by nia.
        split; [exact W1|]. split.
        { intros q e _ He. exists e. split; [|apply stays_refl]. rewrite V. destruct (in_pages_cases (pg / P) (2 * n) q) as [[-> Iq]|[-> Iq]]; [|exact He].
          rewrite (Fr q Iq) in He. discriminate He. }
        split; [intros x f Hf _; rewrite Fd; exact Hf|]. split; [|split; [|left; auto]].
        * exists n, o. split; [exact Hn|]. pose proof (hd_old _ _ _ M2) as Ho. split.
          -- split; [exact M1| | |].
             ++ destruct M2 as [A1 A2 A3 A4]. split; rewrite ?N1, ?Fd, ?Fs; auto. lia.
             ++ rewrite O1, put_other by lia. exact M6.
             ++ intros i. rewrite O1, put_other by lia. apply M7.
          -- split; auto; try nia.
             ++ intros k Hk. rewrite V, in_pages_yes by lia. eexists. split; [reflexivity|]. lia.
             ++ intros p e. rewrite V. destruct (in_pages_cases (pg / P) (2 * n) p) as [[-> Ip]|[-> Ip]].
                ** intros [= <-]. cbn. lia.
                ** intros He Eo. destruct (N p e He Eo).
        * unfold pd_page. cbn [pd_addr]. intros q Hq. right. apply Fr. apply addr_page; auto. lia.
      + destruct Er as (c & Er & _). apply mmap_spec in Er. split; [exact W1|]. split; [intros q y _; apply (quiet_vm _ _ Er)|].
        split; [intros y f Hf _; rewrite (q_fd _ _ Er); exact Hf|].
        split; [|split; [intros q []|left; auto]]. apply (quiet_open _ _ _ Er). eexists. exact (hd_own _ _ _ M2).
    - (* RFirst *)
      destruct H as (n & o & Hn & M & F). pose proof M as [M1 M2 M6 M7]. pose proof F as [F1 F2 F3 F4 F5 F6].
      destruct (ring_mmap t RingPrimary true pg len true false fd w) as [r w1] eqn:Er.
      pose proof (wfly_ring_mmap t ltac:(lia) ltac:(lia) HP RingPrimary true pg len true false fd w W) as [W1 _]. rewrite Er in W1. cbn [snd] in W1.
      unfold ring_mmap in Er. apply os_call_inv in Er.
      destruct r as [a|e| | |]; try (apply (mmap_fixed_spec t _ _ _ _ _ _ _ _ _ (hd_own _ _ _ M2) eq_refl) in Er; contradiction Er); injection E as <- <-.
      + apply (mmap_fixed_spec t _ _ _ _ _ _ _ _ _ (hd_own _ _ _ M2) eq_refl) in Er as (_ & _ & _ & V & O1 & N1 & Fd & Fs). cbn [fd_obj] in V.
        rewrite Hn, (npages_mul t HP) in V. pose proof (fun q => half_page _ _ _ _ _ q F) as Pg.
        split; [exact W1|]. split.
        { intros q e Nq He. exists e. split; [|apply stays_refl]. rewrite V, in_pages_no; [exact He|]. intros Iq. apply Nq.
          unfold pd_page. cbn [pd_addr]. rewrite Hn. apply Pg. lia. }
        split; [intros x f Hf _; rewrite Fd; exact Hf|]. split; [|split; [intros q Hq; left; exact Hq|left; auto]].
        exists n, o. split; [exact Hn|]. split.
        * split; [exact M1| |rewrite O1; exact M6|intros i; rewrite O1; apply M7].
          destruct M2 as [A1 A2 A3 A4]. split; rewrite ?N1, ?Fd, ?Fs; auto.
        * split; auto.
          -- intros k Hk. rewrite V. destruct (Z.lt_ge_cases k n) as [L|L].
             ++ rewrite in_pages_yes by lia. eexists. split; [reflexivity|]. intros _. cbn. rewrite Z.mod_small by lia.
                split; [reflexivity|]. split; [lia|]. auto.
             ++ rewrite in_pages_no by lia. destruct (F5 k Hk) as (e & He & _). exists e. split; [exact He|]. lia.
          -- intros p e. rewrite V. destruct (in_pages_cases (pg / P) n p) as [[-> Ip]|[-> Ip]]; [intros; lia|].
             intros He Eo. pose proof (F6 p e He Eo). lia.
      + destruct Er as (c & Er & _). apply (mmap_fixed_spec t _ _ _ _ _ _ _ _ _ (hd_own _ _ _ M2) eq_refl) in Er. pose proof Er as [Q1 Q2 Q3 Q4 Q5].
        split; [exact W1|]. split; [intros q y _; apply (quiet_vm _ _ Er)|]. split; [intros y f Hf _; rewrite (q_fd _ _ Er); exact Hf|].
        split; [|split; [intros q Hq; left; exact Hq|left; auto]]. exists n, o, 0. split; [exact Hn|]. split; [lia|]. split.
        * split; [exact M1| |rewrite Q2; exact M6|intros i; rewrite Q2; apply M7]. destruct M2 as [A1 A2 A3 A4]. split; rewrite ?Q3, ?Q4, ?Q5; auto.
        * split; rewrite ?Q1; auto.
    - (* RSecond *)
      destruct H as (n & o & Hn & M & F). pose proof M as [M1 M2 M6 M7]. pose proof F as [F1 F2 F3 F4 F5 F6].
      assert (PA : ptr_add t pg len = pg + len) by (unfold ptr_add, as_usize; rewrite Z.mod_small; nia). rewrite PA in E.
      assert (DE : (pg + len) / P = pg / P + n) by (rewrite Hn, (Z.mul_comm P n), Z.div_add by lia; reflexivity).
      destruct (ring_mmap t RingSecondary true (pg + len) len true false fd w) as [r w1] eqn:Er.
      pose proof (wfly_ring_mmap t ltac:(lia) ltac:(lia) HP RingSecondary true (pg + len) len true false fd w W) as [W1 _]. rewrite Er in W1. cbn [snd] in W1.
      unfold ring_mmap in Er. apply os_call_inv in Er.
      destruct r as [a|e| | |]; try (apply (mmap_fixed_spec t _ _ _ _ _ _ _ _ _ (hd_own _ _ _ M2) eq_refl) in Er; contradiction Er); injection E as <- <-.
      + apply (mmap_fixed_spec t _ _ _ _ _ _ _ _ _ (hd_own _ _ _ M2) eq_refl) in Er as (_ & _ & _ & V & O1 & N1 & Fd & Fs). cbn [fd_obj] in V.
        rewrite DE in V. rewrite Hn, (npages_mul t HP) in V. pose proof (fun q => half_page _ _ _ _ _ q F) as Pg.
        split; [exact W1|]. split.
        { intros q e Nq He. exists e. split; [|apply stays_refl]. rewrite V, in_pages_no; [exact He|]. intros Iq. apply Nq.
          unfold pd_page. cbn [pd_addr]. rewrite Hn. apply Pg. lia. }
        split; [intros x f Hf _; rewrite Fd; exact Hf|]. split; [|split; [intros q Hq; left; exact Hq|left; auto]].
        exists n, o. split; [exact Hn|]. split.
        * split; [exact M1| |rewrite O1; exact M6|intros i; rewrite O1; apply M7].
          destruct M2 as [A1 A2 A3 A4]. split; rewrite ?N1, ?Fd, ?Fs; auto.
        * split; auto.
          -- intros k Hk. rewrite V. destruct (Z.lt_ge_cases k n) as [L|L].
             ++ rewrite in_pages_no by lia. destruct (F5 k Hk) as (e & He & A). exists e. split; [exact He|]. intros _. exact (A L).
             ++ rewrite in_pages_yes by lia. eexists. split; [reflexivity|]. intros _. cbn. split; [reflexivity|]. split; [|auto].
                rewrite <- (Z.mod_add k (-1) n), Z.mod_small by lia. lia.
          -- intros p e. rewrite V. destruct (in_pages_cases (pg / P + n) n p) as [[-> Ip]|[-> Ip]]; [intros; lia|].
             intros He Eo. pose proof (F6 p e He Eo). lia.
      + destruct Er as (c & Er & _). apply (mmap_fixed_spec t _ _ _ _ _ _ _ _ _ (hd_own _ _ _ M2) eq_refl) in Er. pose proof Er as [Q1 Q2 Q3 Q4 Q5].
        split; [exact W1|]. split; [intros q y _; apply (quiet_vm _ _ Er)|]. split; [intros y f Hf _; rewrite (q_fd _ _ Er); exact Hf|].
        split; [|split; [intros q Hq; left; exact Hq|left; auto]]. exists n, o, n. split; [exact Hn|]. split; [lia|]. split.
        * split; [exact M1| |rewrite Q2; exact M6|intros i; rewrite Q2; apply M7]. destruct M2 as [A1 A2 A3 A4]. split; rewrite ?Q3, ?Q4, ?Q5; auto.
        * split; rewrite ?Q1; auto.
    - (* RUndo *)
      destruct H as (n & o & j & Hn & Hj & M & F). pose proof M as [M1 M2 M6 M7]. pose proof F as [F1 F2 F3 F4 F5 F6].
      pose proof (bits_half t Hg) as [B1 B2].
      pose proof (wfly_ring_drop t {| ra_ptr := pg; ra_len := len |} w W) as [W1 _]. unfold ring_drop in W1. cbn [ra_ptr ra_len] in W1.
      destruct (ignore (unmap_ring t pg len) w) as [r w1] eqn:Er. cbn [snd] in W1.
      apply (RingMapClaims.drop_spec t Hg pg len) in Er; [|nia|exact F2]. destruct Er as (-> & _ & _ & Fd & _ & D). injection E as <- <-.
      split; [exact W1|]. split.
      { intros q x Nq He. exists x. split; [|apply stays_refl]. destruct D as [[_ V]|[_ V]]; rewrite V; [|exact He].
        rewrite in_pages_no; [exact He|]. rewrite Hn. replace (2 * (P * n)) with (P * (2 * n)) by lia. rewrite (npages_mul t HP).
        intros Iq. apply Nq. unfold pd_page. cbn [pd_addr]. rewrite Hn. apply (half_page _ _ _ _ _ _ F). exact Iq. }
      split; [intros x f Hf _; rewrite Fd; exact Hf|]. split; [|split; [intros q []|left; auto]].
      cbn. eexists. rewrite Fd. exact (hd_own _ _ _ M2).
    - (* RClose *)
      destruct (close_extends fd w W) as (X & W1 & V1 & O1 & N1 & S1 & F1). cbv zeta in *.
      assert (L : forall res, local (RClose inf len fd r) w (snd (sys_close fd w)) (Over res)).
      { intros res. split; [exact W1|]. split; [intros q e _; apply (extends_vm _ _ X)|]. split; [|exact Logic.I].
        intros x f Hf Nx. rewrite F1, put_other; [exact Hf|]. intros ->. apply (Nx eq_refl). reflexivity. }
      destruct r as [pg|e| | |]; apply pair_eq in E as [<- <-]; try apply L.
      destruct (L TNone) as (A1 & A2 & A3 & _). split; [exact A1|]. split; [exact A2|]. split; [exact A3|].
      destruct H as (n & o & Hn & M & F). pose proof M as [M1 [A4 A5 A6 A7] M6 M7]. pose proof F as [F1' F2 F3 F4 F5 F6].
      pose proof (bits_half t Hg) as [B1 B2].
      assert (Ea : h_alloc (new_held inf pg len) = {| ra_ptr := pg; ra_len := len |}) by (destruct inf; reflexivity).
      exists n, o. split; [|split].
      + split; rewrite ?Ea; cbn [ra_ptr ra_len]; auto; [|split|lia].
        * split; rewrite ?V1, ?O1; auto.
          -- intros k Hk. destruct (F5 k Hk) as (e & He & A). exists e. split; [exact He|]. apply A. lia.
          -- lia.
        * rewrite N1. exact A4.
        * intros x f Hf. rewrite F1 in Hf. unfold put in Hf. destruct (Z.eqb_spec x fd); [discriminate Hf|]. exact (A6 x f n0 Hf).
        * rewrite S1. exact A7.
      + destruct (new_fit t pg len); [nia|nia|]. destruct inf; assumption.
      + unfold ring_page, ring_addr. rewrite Ea. intros q Hq. exact Hq.
  Qed.

  Lemma adv_staged pd w out w' : wf w -> pend_ok w pd -> advance t plat pd w = (out, w') -> staged pd w w' out.
  Proof.
    intros W H E. destruct (adv_local _ _ _ _ W H E) as (A1 & A2 & A3 & A4).
    split; try assumption.
    - intros o. pose proof (adv_safe pd w o W H) as S. rewrite E in S. exact S.
    - intros x o Hx N. pose proof (adv_hid pd w x o W H Hx N) as S. rewrite E in S. exact S.
  Qed.
End Threads.
