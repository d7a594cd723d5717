(** Buffered readers and writers in processes, over inner objects of any
    behaviour. *)
From Coq Require Import Lia.
From Verif Require Import Base Spec ErrorModel RingSpec RingModel SizeModel SizeProofs SeqProofs BufSpec BufModel OsModel MapModel MapSpec OsProofs MapProofs MapCreate MapOps
  ApiModel ApiSpec ApiProofs RingMapModel RingMapSpec MirrorProofs RingMapClaims RingProofs RingTheorems RingClaims IRingProofs RingWeak MemRingModel MemRingProofs
  ProcModel ProcSpec ProcFrame ProcProofs ProcClaims
  MachModel MachSpec MachProofs MachClaims MachProcModel MachProcSpec MachProcProofs MachProcClaims
  WinModel WinSpec WinProofs WinMapModel WinMapSpec WinProcModel WinProcSpec WinProcProofs WinProcClaims
  BufWeak BufProgModel BufProgProofs BufProgSpec BufProgClaims BufProgWeak BufProgAnySpec.

(** ** Any machine that keeps the ring *)
Section Gen.
  Variable t : target.
  Hypothesis Hbits : 32 <= t_bits t <= 64.
  Variables P C : Type.
  Variable other : C -> Prop.
  Variable step : C -> P -> P.
  Variable own : rop -> P -> option (out io_error rout) * P.
  Variable len : bool -> P -> option (out io_error Z).
  Variable sim : P -> ring -> Prop.
  Hypothesis Hother : forall p r e, sim p r -> other e -> sim (step e p) r.
  Hypothesis Hlen : forall p r (w : bool) n, sim p r -> (if w then ring_write_len t r else ring_read_len t r) = Ret n -> len w p = Some (Ret n).
  Hypothesis Hown : forall p r o r1 x, sim p r -> rop_ok t o -> ring_step t r o = Ret (r1, x) ->
    exists p1, own o p = (Some (Ret x), p1) /\ sim p1 r1.
  Hypothesis Hbad : forall p r o, sim p r -> rop_ok t o -> ring_step t r o = Panic ->
    exists p1 r1, own o p = (Some Panic, p1) /\ sim p1 r1 /\ r_len r1 = r_len r /\ exists d, winv t r1 d.
  Variable cap : Z.
  Hypothesis Hcap : 0 < cap.
  Hypothesis Hword : 2 * cap < 2 ^ t_bits t.

  Definition sim2 (p : P) (r : ring) : Prop := sim p r /\ r_len r = cap /\ exists d, winv t r d.
  Lemma s2_other p r e : sim2 p r -> other e -> sim2 (step e p) r.
  Proof. intros (S & K) O. split; [exact (Hother _ _ _ S O)|exact K]. Qed.
  Lemma s2_len p r (w : bool) n : sim2 p r -> (if w then ring_write_len t r else ring_read_len t r) = Ret n -> len w p = Some (Ret n).
  Proof. intros (S & _). exact (Hlen _ _ _ _ S). Qed.
  Lemma s2_own p r o r1 x : sim2 p r -> rop_ok t o -> ring_step t r o = Ret (r1, x) -> exists p1, own o p = (Some (Ret x), p1) /\ sim2 p1 r1.
  Proof.
    intros (S & L & d & I) O E. destruct (Hown _ _ _ _ _ S O E) as (p1 & Oq & S1). exists p1. split; [exact Oq|]. split; [exact S1|].
    pose proof (w_step t Hbits _ _ o I O) as F. rewrite E in F. cbn [fine fst] in F. destruct F as [I1 L1]. split; [congruence|exact I1].
  Qed.
  Lemma s2_bad p r o : sim2 p r -> rop_ok t o -> ring_step t r o = Panic -> exists p1, own o p = (Some Panic, p1) /\ exists r1, sim2 p1 r1.
  Proof.
    intros (S & L & _) O E. destruct (Hbad _ _ _ S O E) as (p1 & r1 & Oq & S1 & L1 & I1). exists p1. split; [exact Oq|]. exists r1. split; [exact S1|]. split; [congruence|exact I1].
  Qed.
  Lemma s2_new p : sim p (ring_make cap (fun _ => 0)) -> sim2 p (ring_make cap (fun _ => 0)).
  Proof. intros S. split; [exact S|]. split; [reflexivity|]. exists 0. apply w_make; [exact Hbits|exact Hcap|lia]. Qed.
  (** The ring answers, with no more than its capacity. *)
  Lemma s2_seen p r : sim2 p r -> exists d, ring_read_slice t r (umax t) = Ret d /\ fst (own (RPeek (umax t)) p) = Some (Ret (OBytes d)) /\ zlen d <= cap.
  Proof.
    intros (S & L & d & I). destruct (w_read_slice t Hbits _ _ (umax t) I (umax_nonneg t Hbits)) as (s & Es & Ls). exists s. split; [exact Es|].
    split; [|pose proof (w_d _ _ _ I); lia].
    destruct (Hown p r (RPeek (umax t)) r (OBytes s) S) as (p1 & O & _); [exact (umax_ok t Hbits)|cbn [ring_step]; rewrite Es; reflexivity|]. rewrite O. reflexivity.
  Qed.

  Lemma reader_all p src script os : sim p (ring_make cap (fun _ => 0)) -> Forall (ranswer_ok t) script -> Forall (brop_ok t) os ->
    let c := c_rrun t cap 0 {| rs_src := src; rs_script := script; rs_asked := [] |} os in
    (exists res p2, exec P C other step own len p c res p2) /\
    forall res p2, exec P C other step own len p c res p2 ->
      reader_outcome_any t cap src script os res (fst (own (RPeek (umax t)) p2)).
  Proof.
    intros S0 Hs Ho c. pose proof (s2_new _ S0) as S.
    set (b0 := br_new {| rs_src := src; rs_script := script; rs_asked := [] |} cap (fun _ => 0)).
    assert (G0 : rgood t cap b0). { destruct S as (_ & _ & I). split; [exact I|]. split; [reflexivity|]. split; [exact Hs|cbn; lia]. }
    destruct (br_run t b0 os) as [[b d] rs] eqn:E. destruct (br_run_weak t Hbits cap _ _ _ _ _ G0 Ho E) as [G F].
    pose proof (wk_rrun t Hbits cap Hcap Hword os _ _ _ _ G0 Ho E) as W. change (ends t (ring_make cap (fun _ => 0)) c (br_ring b) (br_lowat b, br_src b, d, rs) (broken t rs)) in W.
    split.
    - destruct W as [W|[W _]]; exact (weak_exists t P C other step own len sim2 s2_len s2_own _ s2_bad _ _ _ W p S).
    - intros res p2 X. destruct W as [W|[W [Kp Kc]]]; pose proof (weak_sound t P C other step own len sim2 s2_other s2_len s2_own _ s2_bad _ _ _ _ X _ _ S W) as M; cbv beta iota in M.
      + destruct M as [-> S2]. destruct (s2_seen _ _ S2) as (s & Es & Ee & Ls). exists b, d, rs, s. repeat (split; [assumption|]). left. split; [reflexivity|exact Es].
      + destruct M as [-> [r1 S2]]. destruct (s2_seen _ _ S2) as (s & Es & Ee & Ls). exists b, d, rs, s. repeat (split; [assumption|]). right. auto.
  Qed.
  Lemma writer_all p script os : sim p (ring_make cap (fun _ => 0)) -> Forall (wanswer_ok t) script ->
    let c := c_wlife t {| ws_log := []; ws_script := script; ws_calls := [] |} false os in
    (exists res p2, exec P C other step own len p c res p2) /\
    forall res p2, exec P C other step own len p c res p2 ->
      writer_outcome_any t cap script os res (fst (own (RPeek (umax t)) p2)).
  Proof.
    intros S0 Hs c. pose proof (s2_new _ S0) as S.
    set (b0 := bw_from_parts {| ws_log := []; ws_script := script; ws_calls := [] |} (ring_make cap (fun _ => 0))).
    assert (G0 : wgood t cap b0). { destruct S as (_ & _ & I). split; [exact I|]. split; [reflexivity|exact Hs]. }
    destruct (bw_run t b0 os) as [[b d] rs] eqn:E. destruct (bw_drop t b) as [s r] eqn:Ed.
    destruct (bw_run_weak t Hbits cap _ _ _ _ _ G0 E) as [G F]. destruct (drop_weak t Hbits cap _ _ _ G Ed) as [Nr _].
    assert (FF : Forall (fun r => r <> Fault) (rs ++ [r])) by (apply Forall_app; split; [exact F|]; constructor; [exact Nr|constructor]).
    destruct (wk_wlife t Hbits cap Hcap Hword os _ _ _ _ _ _ G0 E Ed) as (b2 & G2 & W).
    change (ends t (ring_make cap (fun _ => 0)) c (bw_ring b2) (s, d, rs ++ [r]) (broken t (rs ++ [r]))) in W.
    split.
    - destruct W as [W|[W _]]; exact (weak_exists t P C other step own len sim2 s2_len s2_own _ s2_bad _ _ _ W p S).
    - intros res p2 X. destruct W as [W|[W [Kp Kc]]]; pose proof (weak_sound t P C other step own len sim2 s2_other s2_len s2_own _ s2_bad _ _ _ _ X _ _ S W) as M; cbv beta iota in M.
      + destruct M as [-> S2]. destruct (s2_seen _ _ S2) as (h & Es & Ee & Ls). exists b, d, rs, s, r, h. repeat (split; [assumption|]). left. reflexivity.
      + destruct M as [-> [r1 S2]]. destruct (s2_seen _ _ S2) as (h & Es & Ee & Ls). exists b, d, rs, s, r, h. repeat (split; [assumption|]). right. auto.
  Qed.
End Gen.

(** ** POSIX *)
Section Posix.
  Variable t : target.
  Variable plat : platform.
  Hypothesis Ht : posix_target t.
  Let HB : 32 <= t_bits t <= 64.
  Proof. destruct (proj1 Ht) as [[E|E] _]; lia. Qed.
  Variable k : Z.

  Lemma p_sim_bad p r c : psim t k p r -> rop_ok t c -> ring_step t r c = Panic ->
    exists p1 r1, p_own t plat k c p = (Some Panic, p1) /\ psim t k p1 r1 /\ r_len r1 = r_len r /\ exists d, winv t r1 d.
  Proof.
    intros (K & s & n & o & m & Hk & H & ->) Hc E.
    pose proof (pstep_ok t plat Ht (PCall k c) p K Hc) as K1.
    destruct (pk_ring _ _ K _ _ Hk) as (Fs & _).
    pose proof (ring_call_spec t Ht s (pc_w p) n o m c H Fs Hc) as A. rewrite E in A. unfold agrees, agr in A.
    destruct A as (s' & w' & m' & Es & Fs' & Rg & O). pose proof Fs' as (E1 & E2 & m2 & d2 & I2).
    unfold p_own. cbn [pstep] in *. rewrite Hk in *. rewrite Es in *. cbn [snd] in K1. eexists _, (abs s' m'). split; [reflexivity|].
    split; [|split; [exact E2|exists d2; exact (winv_mem _ _ _ _ _ I2)]].
    split; [exact K1|]. exists s', n, o, m'. split; [cbn; apply put_same|]. split; [|reflexivity].
    destruct H as [L R0 [Pv1 Pv2 Pv3] Lo Hi]. cbn [h_alloc ra_ptr ra_len] in *.
    split; cbn [h_alloc ra_ptr ra_len]; rewrite ?E1, ?E2; try assumption.
    split; cbn; [rewrite (oi_next _ _ _ O)|rewrite (oi_fd _ _ _ O)|rewrite (oi_fs _ _ _ O)]; assumption.
  Qed.

  Theorem p_reader_any p hint clock p1 src script os : preached t plat p -> is_usize t hint -> pstep t plat (PRing hint clock) p = (ANew (Ret k), p1) ->
    Forall (ranswer_ok t) script -> Forall (brop_ok t) os ->
    exists cap, is_ceil (t_alloc t) hint cap /\
      let c := c_rrun t cap 0 {| rs_src := src; rs_script := script; rs_asked := [] |} os in
      (exists res p2, p_exec t plat k p1 c res p2) /\
      forall res p2, p_exec t plat k p1 c res p2 -> reader_outcome_any t cap src script os res (fst (p_own t plat k (RPeek (umax t)) p2)).
  Proof.
    intros Rp Hh E Fh Fo. destruct (p_sim_new t plat Ht k p hint clock p1 Rp Hh E) as (cap & IC & L1 & L2 & S). exists cap. split; [exact IC|].
    exact (reader_all t HB _ _ _ _ _ _ (psim t k) (p_sim_other t plat Ht k) (p_sim_len t k) (p_sim_own t plat Ht k) p_sim_bad cap L1 L2 p1 src script os S Fh Fo).
  Qed.
  Theorem p_writer_any p hint clock p1 script os : preached t plat p -> is_usize t hint -> pstep t plat (PRing hint clock) p = (ANew (Ret k), p1) ->
    Forall (wanswer_ok t) script ->
    exists cap, is_ceil (t_alloc t) hint cap /\
      let c := c_wlife t {| ws_log := []; ws_script := script; ws_calls := [] |} false os in
      (exists res p2, p_exec t plat k p1 c res p2) /\
      forall res p2, p_exec t plat k p1 c res p2 -> writer_outcome_any t cap script os res (fst (p_own t plat k (RPeek (umax t)) p2)).
  Proof.
    intros Rp Hh E Fh. destruct (p_sim_new t plat Ht k p hint clock p1 Rp Hh E) as (cap & IC & L1 & L2 & S). exists cap. split; [exact IC|].
    exact (writer_all t HB _ _ _ _ _ _ (psim t k) (p_sim_other t plat Ht k) (p_sim_len t k) (p_sim_own t plat Ht k) p_sim_bad cap L1 L2 p1 script os S Fh).
  Qed.
End Posix.

(** ** macOS and iOS *)
Section Mach.
  Variable t : target.
  Hypothesis Ht : posix_target t.
  Let HB : 32 <= t_bits t <= 64.
  Proof. destruct (proj1 Ht) as [[E|E] _]; lia. Qed.
  Variable k : Z.

  Lemma m_sim_bad p r c : msim t k p r -> rop_ok t c -> ring_step t r c = Panic ->
    exists p1 r1, m_own t k c p = (Some Panic, p1) /\ msim t k p1 r1 /\ r_len r1 = r_len r /\ exists d, winv t r1 d.
  Proof.
    intros S Hc E. destruct (p_sim_bad t Anonymous Ht k (mp_p p) r c S Hc E) as (p1 & r1 & O & S1 & K).
    unfold m_own. rewrite same_step by exact Logic.I. unfold p_own in O. destruct (pstep t Anonymous (PCall k c) (mp_p p)) as [y p'].
    injection O as Oy <-. cbn [fst snd]. rewrite Oy. eexists _, r1. split; [reflexivity|]. split; [exact S1|exact K].
  Qed.
  Theorem m_reader_any p hint clock p1 src script os : mreached t p -> mcall_ok t (PRing hint clock) -> mstep t (PRing hint clock) p = (ANew (Ret k), p1) ->
    Forall (ranswer_ok t) script -> Forall (brop_ok t) os ->
    exists cap, is_ceil (t_alloc t) hint cap /\
      let c := c_rrun t cap 0 {| rs_src := src; rs_script := script; rs_asked := [] |} os in
      (exists res p2, m_exec t k p1 c res p2) /\
      forall res p2, m_exec t k p1 c res p2 -> reader_outcome_any t cap src script os res (fst (m_own t k (RPeek (umax t)) p2)).
  Proof.
    intros Rp Hh E Fh Fo. destruct (m_sim_new t Ht k p hint clock p1 Rp Hh E) as (cap & IC & L1 & L2 & S). exists cap. split; [exact IC|].
    exact (reader_all t HB _ _ _ _ _ _ (msim t k) (m_sim_other t Ht k) (fun p => p_sim_len t k (mp_p p)) (m_sim_own t Ht k) m_sim_bad cap L1 L2 p1 src script os S Fh Fo).
  Qed.
  Theorem m_writer_any p hint clock p1 script os : mreached t p -> mcall_ok t (PRing hint clock) -> mstep t (PRing hint clock) p = (ANew (Ret k), p1) ->
    Forall (wanswer_ok t) script ->
    exists cap, is_ceil (t_alloc t) hint cap /\
      let c := c_wlife t {| ws_log := []; ws_script := script; ws_calls := [] |} false os in
      (exists res p2, m_exec t k p1 c res p2) /\
      forall res p2, m_exec t k p1 c res p2 -> writer_outcome_any t cap script os res (fst (m_own t k (RPeek (umax t)) p2)).
  Proof.
    intros Rp Hh E Fh. destruct (m_sim_new t Ht k p hint clock p1 Rp Hh E) as (cap & IC & L1 & L2 & S). exists cap. split; [exact IC|].
    exact (writer_all t HB _ _ _ _ _ _ (msim t k) (m_sim_other t Ht k) (fun p => p_sim_len t k (mp_p p)) (m_sim_own t Ht k) m_sim_bad cap L1 L2 p1 script os S Fh).
  Qed.
End Mach.

(** ** Windows *)
Section Win.
  Variable t : target.
  Hypothesis Ht : good_target t.
  Let HB : 32 <= t_bits t <= 64.
  Proof. destruct Ht as [[E|E] _]; lia. Qed.
  Variable k : Z.

  Lemma w_sim_bad p r c : wsim t k p r -> rop_ok t c -> ring_step t r c = Panic ->
    exists p1 r1, w_own t k c p = (Some Panic, p1) /\ wsim t k p1 r1 /\ r_len r1 = r_len r /\ exists d, winv t r1 d.
  Proof.
    intros (K & s & o & m & Hk & Hg & H & ->) Hc E.
    destruct (wpstep_traced t Ht (WCall k c) p K Hc) as (hs & Tr). pose proof (tr_pok _ _ _ _ _ Tr) as K1. clear Tr hs.
    destruct (wk_ring _ _ K _ _ Hk) as (Fs & _).
    pose proof (wring_call_spec t Ht (wp_g p) k _ o Hg s (g_s (wp_g p)) m c eq_refl Fs H Hc) as A. rewrite E in A. unfold agrees, agr in A.
    destruct A as (s' & w' & m' & Es & Fs' & Rg & O). pose proof Fs' as (E1 & E2 & m2 & d2 & I2).
    assert (Ea : h_alloc (HRing s') = h_alloc (HRing s)) by (cbn; rewrite E1, E2; reflexivity).
    unfold w_own. cbn [wpstep] in *. rewrite Hk in *. rewrite Es in *. cbn [snd] in K1. eexists _, (abs s' m'). split; [reflexivity|].
    split; [|split; [exact E2|exists d2; exact (winv_mem _ _ _ _ _ I2)]].
    split; [exact K1|]. exists s', o, m'. split; [cbn; apply put_same|]. rewrite Ea. auto.
  Qed.
  Theorem w_reader_any p hint p1 src script os : wpreached t p -> is_usize t hint -> wpstep t (WRing hint) p = (WNew (Ret k), p1) ->
    Forall (ranswer_ok t) script -> Forall (brop_ok t) os ->
    exists cap, is_ceil (t_alloc t) hint cap /\
      let c := c_rrun t cap 0 {| rs_src := src; rs_script := script; rs_asked := [] |} os in
      (exists res p2, w_exec t k p1 c res p2) /\
      forall res p2, w_exec t k p1 c res p2 -> reader_outcome_any t cap src script os res (fst (w_own t k (RPeek (umax t)) p2)).
  Proof.
    intros Rp Hh E Fh Fo. destruct (w_sim_new t Ht k p hint p1 Rp Hh E) as (cap & IC & L1 & L2 & S). exists cap. split; [exact IC|].
    exact (reader_all t HB _ _ _ _ _ _ (wsim t k) (w_sim_other t Ht k) (w_sim_len t k) (w_sim_own t Ht k) w_sim_bad cap L1 L2 p1 src script os S Fh Fo).
  Qed.
  Theorem w_writer_any p hint p1 script os : wpreached t p -> is_usize t hint -> wpstep t (WRing hint) p = (WNew (Ret k), p1) ->
    Forall (wanswer_ok t) script ->
    exists cap, is_ceil (t_alloc t) hint cap /\
      let c := c_wlife t {| ws_log := []; ws_script := script; ws_calls := [] |} false os in
      (exists res p2, w_exec t k p1 c res p2) /\
      forall res p2, w_exec t k p1 c res p2 -> writer_outcome_any t cap script os res (fst (w_own t k (RPeek (umax t)) p2)).
  Proof.
    intros Rp Hh E Fh. destruct (w_sim_new t Ht k p hint p1 Rp Hh E) as (cap & IC & L1 & L2 & S). exists cap. split; [exact IC|].
    exact (writer_all t HB _ _ _ _ _ _ (wsim t k) (w_sim_other t Ht k) (w_sim_len t k) (w_sim_own t Ht k) w_sim_bad cap L1 L2 p1 script os S Fh).
  Qed.
End Win.
