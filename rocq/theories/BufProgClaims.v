(** Buffered readers and writers in processes. *)
From Coq Require Import Lia Permutation.
From Verif Require Import Base Spec ErrorModel RingSpec RingModel SizeModel SizeProofs SeqProofs BufSpec BufModel OsModel MapModel MapSpec OsProofs MapProofs MapCreate MapOps
  ApiModel ApiSpec ApiProofs RingMapModel RingMapSpec MirrorProofs RingMapClaims RingProofs RingTheorems RingClaims IRingProofs RingWeak MemRingModel MemRingProofs
  ProcModel ProcSpec ProcFrame ProcProofs ProcClaims
  MachModel MachSpec MachProofs MachClaims MachProcModel MachProcSpec MachProcProofs MachProcClaims
  WinModel WinSpec WinProofs WinMapModel WinMapSpec WinProcModel WinProcSpec WinProcProofs WinProcClaims
  BufReaderProofs BufWriterProofs BufProgModel BufProgProofs BufProgSpec.

(** ** Any machine that keeps the ring *)
Section Gen.
  Variable t : target.
  Hypothesis Hbits : 32 <= t_bits t <= 64.
  Variables P C : Type.
  Variable other : C -> Prop.
  Variable step : C -> P -> P.
  Variable own : rop -> P -> option (out io_error rout) * P.
  Variable len : bool -> P -> option (out io_error Z).
  Variable sim : P -> ring -> Prop.
  Hypothesis Hother : forall p r e, sim p r -> other e -> sim (step e p) r.
  Hypothesis Hlen : forall p r (w : bool) n, sim p r -> (if w then ring_write_len t r else ring_read_len t r) = Ret n -> len w p = Some (Ret n).
  Hypothesis Hown : forall p r o r1 x, sim p r -> rop_ok t o -> ring_step t r o = Ret (r1, x) ->
    exists p1, own o p = (Some (Ret x), p1) /\ sim p1 r1.
  Variable cap : Z.
  Hypothesis Hcap : 0 < cap.
  Hypothesis Hword : 2 * cap < 2 ^ t_bits t.

  Lemma seen_of p r d : sim p r -> ring_read_slice t r (umax t) = Ret d -> fst (own (RPeek (umax t)) p) = Some (Ret (OBytes d)).
  Proof.
    intros S E. destruct (Hown p r (RPeek (umax t)) r (OBytes d) S) as (p1 & O & _).
    - exact (umax_ok t Hbits).
    - cbn [ring_step]. rewrite E. reflexivity.
    - rewrite O. reflexivity.
  Qed.

  Lemma reader_any p src script os : sim p (ring_make cap (fun _ => 0)) -> Forall honest script -> Forall (brop_ok t) os ->
    pos_ok t cap (zlen src) ->
    let c := c_rrun t cap 0 {| rs_src := src; rs_script := script; rs_asked := [] |} os in
    (exists res p2, exec P C other step own len p c res p2) /\
    forall res p2, exec P C other step own len p c res p2 ->
      reader_outcome t cap src script os res (fst (own (RPeek (umax t)) p2)).
  Proof.
    intros S Hh Ho Hpos c.
    pose proof (br_new_bi t Hbits cap Hcap Hword src script (fun _ => 0) [] Hh) as B0.
    set (b0 := br_new {| rs_src := src; rs_script := script; rs_asked := [] |} cap (fun _ => 0)) in *.
    destruct (br_run_spec t Hbits cap Hcap Hword src Hpos os _ _ _ _ B0 Ho) as (b & d & data & free & rs & E & Bi & F & _).
    pose proof (ev_rrun t Hbits cap Hcap Hword src Hpos os _ _ _ _ _ _ _ B0 Ho E) as Ev. change (evals t (ring_make cap (fun _ => 0)) c (br_ring b) (br_lowat b, br_src b, d, rs)) in Ev.
    split.
    - destruct (exec_exists t P C other step own len sim Hlen Hown _ _ _ _ Ev p S) as (p2 & X & _). eauto.
    - intros res p2 X. destruct (exec_sound t P C other step own len sim Hother Hlen Hown _ _ _ _ X _ _ _ S Ev) as (-> & S2).
      destruct (bi_ring t Hbits cap Hcap Hword src _ _ _ _ Bi) as (_ & _ & EB).
      exists (br_lowat b), (br_src b), d, rs, data. split; [reflexivity|]. split; [exact (seen_of _ _ _ S2 EB)|].
      split; [destruct Bi as (? & ? & _ & _ & _ & _ & _ & _ & Hx); exact Hx|].
      split; [pose proof (bi_lens t Hbits cap src _ _ _ _ Bi); pose proof (zlen_nonneg free); lia|].
      split; [exact F|]. exists b. auto.
  Qed.

  Lemma writer_any p script os : sim p (ring_make cap (fun _ => 0)) -> Forall whonest script ->
    pos_ok t cap (bwops_weight os) ->
    let c := c_wlife t {| ws_log := []; ws_script := script; ws_calls := [] |} false os in
    (exists res p2, exec P C other step own len p c res p2) /\
    forall res p2, exec P C other step own len p c res p2 ->
      writer_outcome t cap script os res (fst (own (RPeek (umax t)) p2)).
  Proof.
    intros S Hh Hpos c.
    pose proof (bw_new_wi t Hbits cap Hcap Hword script [] [] (fun _ => 0) Hh) as W0.
    set (b0 := bw_from_parts {| ws_log := []; ws_script := script; ws_calls := [] |} (ring_make cap (fun _ => 0))) in *.
    destruct (bw_run t b0 os) as [[b d] rs] eqn:E. destruct (bw_drop t b) as [s r] eqn:Ed.
    destruct (ev_wlife t Hbits cap Hcap Hword os _ _ _ _ _ _ _ _ _ W0 Hpos E Ed) as (b2 & lost & free2 & T2 & Ev & W2 & Pm & F).
    change (evals t (ring_make cap (fun _ => 0)) c (bw_ring b2) (s, d, rs ++ [r])) in Ev.
    split.
    - destruct (exec_exists t P C other step own len sim Hlen Hown _ _ _ _ Ev p S) as (p2 & X & _). eauto.
    - intros res p2 X. destruct (exec_sound t P C other step own len sim Hother Hlen Hown _ _ _ _ X _ _ _ S Ev) as (-> & S2).
      destruct (wi_ring t Hbits cap Hcap Hword _ _ _ _ W2) as (_ & _ & _ & EB).
      exists s, d, (rs ++ [r]), lost. split; [reflexivity|]. split; [exact (seen_of _ _ _ S2 EB)|].
      split; [exact Pm|].
      split; [pose proof (wi_lens t Hbits cap _ _ _ _ W2); pose proof (zlen_nonneg free2); lia|].
      split; [exact F|]. exists b, rs, r. auto.
  Qed.
End Gen.

(** ** POSIX *)
Section Posix.
  Variable t : target.
  Variable plat : platform.
  Hypothesis Ht : posix_target t.
  Let HB : 32 <= t_bits t <= 64.
  Proof. destruct (proj1 Ht) as [[E|E] _]; lia. Qed.
  Variable k : Z.

  Definition psim (p : proc) (r : ring) : Prop :=
    pok t p /\ exists s n o m, pc_ring p k = Some (HRing s) /\ at_home t (pc_w p) (HRing s) n o m /\ r = abs s m.
  Lemma p_sim_other p r c : psim p r -> p_other t k c -> psim (snd (pstep t plat c p)) r.
  Proof.
    intros (K & s & n & o & m & Hk & H & ->) (Hc & N). split; [exact (pstep_ok t plat Ht c p K Hc)|].
    destruct (other_step t plat Ht c p k _ n o m K Hc Hk H (or_introl N)) as [Hk1 H1]. exists s, n, o, m. auto.
  Qed.
  Lemma p_sim_len p r (w : bool) n : psim p r -> (if w then ring_write_len t r else ring_read_len t r) = Ret n ->
    ring_len t (pc_ring p k) w = Some (Ret n).
  Proof. intros (K & s & n' & o & m & Hk & H & ->) E. rewrite Hk. cbn [ring_len]. destruct w; f_equal; exact E. Qed.
  Lemma p_sim_own p r c r1 x : psim p r -> rop_ok t c -> ring_step t r c = Ret (r1, x) ->
    exists p1, p_own t plat k c p = (Some (Ret x), p1) /\ psim p1 r1.
  Proof.
    intros (K & s & n & o & m & Hk & H & ->) Hc E.
    pose proof (pstep_ok t plat Ht (PCall k c) p K Hc) as K1.
    destruct (pk_ring _ _ K _ _ Hk) as (Fs & _).
    pose proof (ring_call_spec t Ht s (pc_w p) n o m c H Fs Hc) as A. rewrite E in A. unfold agrees, agr in A.
    destruct A as (s' & w' & Es & Eabs & Fs' & Rg & O). pose proof Fs' as (E1 & E2 & _).
    unfold p_own. cbn [pstep] in *. rewrite Hk in *. rewrite Es in *. cbn [snd] in K1. eexists. split; [reflexivity|].
    split; [exact K1|]. exists s', n, o, (r_mem r1). split; [cbn; apply put_same|]. split; [|exact Eabs].
    destruct H as [L R0 [Pv1 Pv2 Pv3] Lo Hi]. cbn [h_alloc ra_ptr ra_len] in *.
    split; cbn [h_alloc ra_ptr ra_len]; rewrite ?E1, ?E2; try assumption.
    split; cbn; [rewrite (oi_next _ _ _ O)|rewrite (oi_fd _ _ _ O)|rewrite (oi_fs _ _ _ O)]; assumption.
  Qed.
  Lemma p_sim_new p hint clock p1 : preached t plat p -> is_usize t hint -> pstep t plat (PRing hint clock) p = (ANew (Ret k), p1) ->
    exists cap, is_ceil (t_alloc t) hint cap /\ 0 < cap /\ 2 * cap < 2 ^ t_bits t /\ psim p1 (ring_make cap (fun _ => 0)).
  Proof.
    intros Rp Hh E. pose proof (preached_ok t plat Ht p Rp) as K.
    pose proof (pstep_ok t plat Ht (PRing hint clock) p K Hh) as K1. rewrite E in K1. cbn [snd] in K1. cbn [pstep] in E.
    destruct (new_inv t plat Ht (fun ptr len => HRing (kring_new ptr len)) _ _ _ _ _ K Hh (fun _ _ => eq_refl) E) as (pg & cap & n & o & IC & L1 & L2 & Hk & H).
    exists cap. do 3 (split; [assumption|]). split; [exact K1|]. exists (kring_new pg cap), n, o, (fun _ => 0). auto.
  Qed.

  Theorem p_reader p hint clock p1 src script os : preached t plat p -> is_usize t hint -> pstep t plat (PRing hint clock) p = (ANew (Ret k), p1) ->
    Forall honest script -> Forall (brop_ok t) os ->
    exists cap, is_ceil (t_alloc t) hint cap /\
      (pos_ok t cap (zlen src) ->
       let c := c_rrun t cap 0 {| rs_src := src; rs_script := script; rs_asked := [] |} os in
       (exists res p2, p_exec t plat k p1 c res p2) /\
       forall res p2, p_exec t plat k p1 c res p2 -> reader_outcome t cap src script os res (fst (p_own t plat k (RPeek (umax t)) p2))).
  Proof.
    intros Rp Hh E Fh Fo. destruct (p_sim_new p hint clock p1 Rp Hh E) as (cap & IC & L1 & L2 & S). exists cap. split; [exact IC|]. intros Hpos.
    exact (reader_any t HB _ _ _ _ _ _ psim p_sim_other p_sim_len p_sim_own cap L1 L2 p1 src script os S Fh Fo Hpos).
  Qed.
  Theorem p_writer p hint clock p1 script os : preached t plat p -> is_usize t hint -> pstep t plat (PRing hint clock) p = (ANew (Ret k), p1) ->
    Forall whonest script ->
    exists cap, is_ceil (t_alloc t) hint cap /\
      (pos_ok t cap (bwops_weight os) ->
       let c := c_wlife t {| ws_log := []; ws_script := script; ws_calls := [] |} false os in
       (exists res p2, p_exec t plat k p1 c res p2) /\
       forall res p2, p_exec t plat k p1 c res p2 -> writer_outcome t cap script os res (fst (p_own t plat k (RPeek (umax t)) p2))).
  Proof.
    intros Rp Hh E Fh. destruct (p_sim_new p hint clock p1 Rp Hh E) as (cap & IC & L1 & L2 & S). exists cap. split; [exact IC|]. intros Hpos.
    exact (writer_any t HB _ _ _ _ _ _ psim p_sim_other p_sim_len p_sim_own cap L1 L2 p1 script os S Fh Hpos).
  Qed.
End Posix.

(** ** macOS and iOS *)
Section Mach.
  Variable t : target.
  Hypothesis Ht : posix_target t.
  Let HB : 32 <= t_bits t <= 64.
  Proof. destruct (proj1 Ht) as [[E|E] _]; lia. Qed.
  Variable k : Z.

  Definition msim (p : mproc) (r : ring) : Prop := psim t k (mp_p p) r.
  Lemma m_sim_other p r c : msim p r -> m_other t k c -> msim (snd (mstep t c p)) r.
  Proof.
    intros (K & s & n & o & m & Hk & H & ->) (Hc & N). split; [exact (mstep_ok t Ht c p K Hc)|].
    destruct (mother_step t Ht c p k _ n o m K Hc Hk H (or_introl N)) as [Hk1 H1]. exists s, n, o, m. auto.
  Qed.
  Lemma m_sim_own p r c r1 x : msim p r -> rop_ok t c -> ring_step t r c = Ret (r1, x) ->
    exists p1, m_own t k c p = (Some (Ret x), p1) /\ msim p1 r1.
  Proof.
    intros S Hc E. destruct (p_sim_own t Anonymous Ht k (mp_p p) r c r1 x S Hc E) as (p1 & O & S1).
    unfold m_own. rewrite same_step by exact Logic.I. unfold p_own in O. destruct (pstep t Anonymous (PCall k c) (mp_p p)) as [y p'].
    injection O as Oy <-. cbn [fst snd]. rewrite Oy. eexists. split; [reflexivity|exact S1].
  Qed.
  Lemma m_sim_new p hint clock p1 : mreached t p -> mcall_ok t (PRing hint clock) -> mstep t (PRing hint clock) p = (ANew (Ret k), p1) ->
    exists cap, is_ceil (t_alloc t) hint cap /\ 0 < cap /\ 2 * cap < 2 ^ t_bits t /\ msim p1 (ring_make cap (fun _ => 0)).
  Proof.
    intros Rp Hh E. pose proof (mreached_ok t Ht p Rp) as K.
    pose proof (mstep_ok t Ht (PRing hint clock) p K Hh) as K1. rewrite E in K1. cbn [snd] in K1. cbn [mstep] in E.
    destruct (mnew_inv t Ht (fun ptr len => HRing (kring_new ptr len)) _ _ _ _ K Hh (fun _ _ => eq_refl) E) as (pg & cap & n & o & IC & L1 & L2 & Hk & H).
    exists cap. do 3 (split; [assumption|]). split; [exact K1|]. exists (kring_new pg cap), n, o, (fun _ => 0). auto.
  Qed.
  Theorem m_reader p hint clock p1 src script os : mreached t p -> mcall_ok t (PRing hint clock) -> mstep t (PRing hint clock) p = (ANew (Ret k), p1) ->
    Forall honest script -> Forall (brop_ok t) os ->
    exists cap, is_ceil (t_alloc t) hint cap /\
      (pos_ok t cap (zlen src) ->
       let c := c_rrun t cap 0 {| rs_src := src; rs_script := script; rs_asked := [] |} os in
       (exists res p2, m_exec t k p1 c res p2) /\
       forall res p2, m_exec t k p1 c res p2 -> reader_outcome t cap src script os res (fst (m_own t k (RPeek (umax t)) p2))).
  Proof.
    intros Rp Hh E Fh Fo. destruct (m_sim_new p hint clock p1 Rp Hh E) as (cap & IC & L1 & L2 & S). exists cap. split; [exact IC|]. intros Hpos.
    exact (reader_any t HB _ _ _ _ _ _ msim m_sim_other (fun p => p_sim_len t k (mp_p p)) m_sim_own cap L1 L2 p1 src script os S Fh Fo Hpos).
  Qed.
  Theorem m_writer p hint clock p1 script os : mreached t p -> mcall_ok t (PRing hint clock) -> mstep t (PRing hint clock) p = (ANew (Ret k), p1) ->
    Forall whonest script ->
    exists cap, is_ceil (t_alloc t) hint cap /\
      (pos_ok t cap (bwops_weight os) ->
       let c := c_wlife t {| ws_log := []; ws_script := script; ws_calls := [] |} false os in
       (exists res p2, m_exec t k p1 c res p2) /\
       forall res p2, m_exec t k p1 c res p2 -> writer_outcome t cap script os res (fst (m_own t k (RPeek (umax t)) p2))).
  Proof.
    intros Rp Hh E Fh. destruct (m_sim_new p hint clock p1 Rp Hh E) as (cap & IC & L1 & L2 & S). exists cap. split; [exact IC|]. intros Hpos.
    exact (writer_any t HB _ _ _ _ _ _ msim m_sim_other (fun p => p_sim_len t k (mp_p p)) m_sim_own cap L1 L2 p1 script os S Fh Hpos).
  Qed.
End Mach.

(** ** Windows *)
Section Win.
  Variable t : target.
  Hypothesis Ht : good_target t.
  Let HB : 32 <= t_bits t <= 64.
  Proof. destruct Ht as [[E|E] _]; lia. Qed.
  Variable k : Z.

  Definition wsim (p : wproc) (r : ring) : Prop :=
    wpok t p /\ exists s o m, wp_ring p k = Some (HRing s) /\ g_tab (wp_g p) k = Some (TRing (h_alloc (HRing s)) o) /\
      rst t (wp_g p) (h_alloc (HRing s)) o (g_s (wp_g p)) m /\ r = abs s m.
  Lemma w_sim_other p r c : wsim p r -> w_other t k c -> wsim (snd (wpstep t c p)) r.
  Proof.
    intros (K & s & o & m & Hk & Hg & H & ->) (Hc & N).
    destruct (wother_step t Ht c p k _ o m K Hc Hk Hg H (or_introl N)) as (K1 & Hk1 & Hg1 & H1). split; [exact K1|]. exists s, o, m. auto.
  Qed.
  Lemma w_sim_len p r (w : bool) n : wsim p r -> (if w then ring_write_len t r else ring_read_len t r) = Ret n ->
    ring_len t (wp_ring p k) w = Some (Ret n).
  Proof. intros (K & s & o & m & Hk & _ & H & ->) E. rewrite Hk. cbn [ring_len]. destruct w; f_equal; exact E. Qed.
  Lemma w_sim_own p r c r1 x : wsim p r -> rop_ok t c -> ring_step t r c = Ret (r1, x) ->
    exists p1, w_own t k c p = (Some (Ret x), p1) /\ wsim p1 r1.
  Proof.
    intros (K & s & o & m & Hk & Hg & H & ->) Hc E.
    destruct (wpstep_traced t Ht (WCall k c) p K Hc) as (hs & Tr). pose proof (tr_pok _ _ _ _ _ Tr) as K1. clear Tr hs.
    destruct (wk_ring _ _ K _ _ Hk) as (Fs & _).
    pose proof (wring_call_spec t Ht (wp_g p) k _ o Hg s (g_s (wp_g p)) m c eq_refl Fs H Hc) as A. rewrite E in A. unfold agrees, agr in A.
    destruct A as (s' & w' & Es & Eabs & Fs' & Rg & O). pose proof Fs' as (E1 & E2 & _).
    assert (Ea : h_alloc (HRing s') = h_alloc (HRing s)) by (cbn; rewrite E1, E2; reflexivity).
    unfold w_own. cbn [wpstep] in *. rewrite Hk in *. rewrite Es in *. cbn [snd] in K1. eexists. split; [reflexivity|].
    split; [exact K1|]. exists s', o, (r_mem r1). split; [cbn; apply put_same|]. rewrite Ea. auto.
  Qed.
  Lemma w_sim_new p hint p1 : wpreached t p -> is_usize t hint -> wpstep t (WRing hint) p = (WNew (Ret k), p1) ->
    exists cap, is_ceil (t_alloc t) hint cap /\ 0 < cap /\ 2 * cap < 2 ^ t_bits t /\ wsim p1 (ring_make cap (fun _ => 0)).
  Proof.
    intros Rp Hh E. pose proof (wpreached_ok t Ht p Rp) as K.
    destruct (wnew_inv t Ht (WRing hint) (fun ptr len => HRing (kring_new ptr len)) _ _ _ _ K Hh (fun _ _ => eq_refl) Hh eq_refl E)
      as (pg & cap & o & IC & L1 & L2 & K1 & Hk & Hg & H).
    exists cap. do 3 (split; [assumption|]). split; [exact K1|]. exists (kring_new pg cap), o, (fun _ => 0). auto.
  Qed.
  Theorem w_reader p hint p1 src script os : wpreached t p -> is_usize t hint -> wpstep t (WRing hint) p = (WNew (Ret k), p1) ->
    Forall honest script -> Forall (brop_ok t) os ->
    exists cap, is_ceil (t_alloc t) hint cap /\
      (pos_ok t cap (zlen src) ->
       let c := c_rrun t cap 0 {| rs_src := src; rs_script := script; rs_asked := [] |} os in
       (exists res p2, w_exec t k p1 c res p2) /\
       forall res p2, w_exec t k p1 c res p2 -> reader_outcome t cap src script os res (fst (w_own t k (RPeek (umax t)) p2))).
  Proof.
    intros Rp Hh E Fh Fo. destruct (w_sim_new p hint p1 Rp Hh E) as (cap & IC & L1 & L2 & S). exists cap. split; [exact IC|]. intros Hpos.
    exact (reader_any t HB _ _ _ _ _ _ wsim w_sim_other w_sim_len w_sim_own cap L1 L2 p1 src script os S Fh Fo Hpos).
  Qed.
  Theorem w_writer p hint p1 script os : wpreached t p -> is_usize t hint -> wpstep t (WRing hint) p = (WNew (Ret k), p1) ->
    Forall whonest script ->
    exists cap, is_ceil (t_alloc t) hint cap /\
      (pos_ok t cap (bwops_weight os) ->
       let c := c_wlife t {| ws_log := []; ws_script := script; ws_calls := [] |} false os in
       (exists res p2, w_exec t k p1 c res p2) /\
       forall res p2, w_exec t k p1 c res p2 -> writer_outcome t cap script os res (fst (w_own t k (RPeek (umax t)) p2))).
  Proof.
    intros Rp Hh E Fh. destruct (w_sim_new p hint p1 Rp Hh E) as (cap & IC & L1 & L2 & S). exists cap. split; [exact IC|]. intros Hpos.
    exact (writer_any t HB _ _ _ _ _ _ wsim w_sim_other w_sim_len w_sim_own cap L1 L2 p1 script os S Fh Hpos).
  Qed.
End Win.
