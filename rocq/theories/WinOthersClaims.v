(** What a program on Windows sees of the acts of other processes. *)
From Coq Require Import Lia.
From Verif Require Import Base Spec ErrorModel SizeModel OsModel OthersModel MapModel MapSpec RingMapModel RingMapSpec SizeProofs OsProofs
  MapProofs MapCreate MapOps ApiModel ApiSpec MapClaims OthersProofs OthersClaims
  WinModel WinSpec WinProofs WinClaims WinCalls WinMapModel WinMapSpec WinSpace WinOthers WinMapProofs WinThings WinHist WinMapClaims.

(** One map of a program as a program of its own on a POSIX system: the bytes
    of a map are found in the same way there. *)
Definition one_prot (p : protect) : protect := match p with ReadExec => ReadOnly | p => p end.
Definition one_live (v : held) : live :=
  {| l_map := v_map v; l_mut := v_mut v; l_obj := v_obj v; l_off := v_off v; l_prot := one_prot (v_prot v); l_wr := prot_writes (v_prot v) |}.
Definition one_api (w : world) (v : held) : api :=
  {| a_w := w; a_live := fun k => if k =? 0 then Some (one_live v) else None; a_cnt := 1 |}.

Section Seen.
  Variable t : target.
  Hypothesis Ht : good_target t.
  Notation P := (t_page t).
  Notation q := (as_posix t).
  Let HP : 0 < P.
  Proof. exact (pow2_pos _ (proj1 (proj2 Ht))). Qed.
  Let Hq : posix_target q.
  Proof. exact (posix_of t Ht). Qed.

  Lemma one_shared v : l_shared (one_live v) = win_shares (v_prot v).
  Proof. unfold l_shared. cbn. destruct (v_prot v); reflexivity. Qed.
  Lemma one_ok g k v : prog_ok t g -> g_tab g k = Some (TMap v) -> 0 < m_len (v_map v) -> api_ok q (one_api (n_w (g_s g)) v).
  Proof.
    intros K Hk Hl. pose proof (po_thing _ _ K _ _ Hk) as M. split.
    - exact (po_wf _ _ K).
    - intros j Hj. cbn in *. destruct (Z.eqb_spec j 0); [lia|reflexivity].
    - intros j l Hj. cbn in Hj. destruct (j =? 0); [|discriminate Hj]. injection Hj as <-. rewrite one_shared.
      assert (E : l_maxw (one_live v) = prot_writes (v_prot v)) by (unfold l_maxw; rewrite one_shared; cbn; destruct (v_prot v); reflexivity).
      rewrite E. apply (mo_back _ _ _ M). pose proof (Z.mod_pos_bound (m_ptr (v_map v)) P HP). lia.
    - intros j1 j2 l1 l2 p H1 H2 N. cbn in *. destruct (Z.eqb_spec j1 0), (Z.eqb_spec j2 0); try discriminate; congruence.
  Qed.
  Definition as_seen (r : out error seen) : out error got :=
    match r with Ret (SByte b) => Ret (GByte b) | Ret _ => Ret GNone | Err e => Err e | Panic => Panic | Fault => Fault | Blocked => Blocked end.
  Lemma one_reading g k v i : g_tab g k = Some (TMap v) -> reading t g k i = as_seen (read_at q (one_api (n_w (g_s g)) v) 0 i).
  Proof.
    intros Hk. rewrite (read_at_live q (one_api (n_w (g_s g)) v) 0 (one_live v) i eq_refl). unfold reading, act_step. rewrite Hk. unfold reads, wget, lift.
    change (map_get q (l_map (one_live v)) i (a_w (one_api (n_w (g_s g)) v))) with (map_get t (v_map v) i (n_w (g_s g))).
    destruct (map_get t (v_map v) i (n_w (g_s g))) as [[b|e| | |] w']; reflexivity.
  Qed.
  Notation oth e g := (g_set g (wothers t e (g_s g))).
  Lemma one_after e g v : one_api (n_w (g_s (oth e g))) v = OthersClaims.after q e (one_api (n_w (g_s g)) v).
  Proof. reflexivity. Qed.
  Lemma oth_ok e g : prog_ok t g -> other_ok e -> prog_ok t (oth e g).
  Proof. intros K He. destruct (step_spec t Ht (AOther e) g He K) as (X & T & Y & S). exact (st_ok _ _ _ _ _ _ _ S). Qed.

  Lemma reading_past g k v i : g_tab g k = Some (TMap v) -> ~ 0 <= i < m_len (v_map v) -> reading t g k i = Panic.
  Proof.
    intros Hk N. rewrite (one_reading g k v i Hk), (read_at_live q (one_api (n_w (g_s g)) v) 0 (one_live v) i eq_refl), get_outside by exact N. reflexivity.
  Qed.

  Lemma wwritten path off d sync g k v i : prog_ok t g -> 0 <= off -> g_tab g k = Some (TMap v) -> win_shares (v_prot v) = true ->
    0 <= i < m_len (v_map v) -> v_off v + i < o_size (w_obj (n_w (g_s g)) (v_obj v)) -> w_fs (n_w (g_s g)) path = Some (v_obj v) ->
    reading t (oth (OWrite path off d sync) g) k i =
      if (off <=? v_off v + i) && (v_off v + i <? off + zlen d) then Ret (GByte (nth (Z.to_nat (v_off v + i - off)) d 0)) else reading t g k i.
  Proof.
    intros K Ho Hk Sh Hi Sz Ef. rewrite (one_reading (oth _ g) k v i Hk), (one_reading g k v i Hk), one_after.
    rewrite (written q Hq path off d sync (one_api (n_w (g_s g)) v) 0 (one_live v) i); auto.
    - cbn [one_live l_off l_map l_obj]. destruct (_ && _); reflexivity.
    - apply (one_ok g k v K Hk). lia.
    - rewrite one_shared. exact Sh.
  Qed.
  Lemma wcut path sz g k v i : prog_ok t g -> g_tab g k = Some (TMap v) -> win_shares (v_prot v) = true ->
    0 <= i < m_len (v_map v) -> 0 <= sz < o_size (w_obj (n_w (g_s g)) (v_obj v)) -> w_fs (n_w (g_s g)) path = Some (v_obj v) ->
    reading t (oth (OCut path sz) g) k i =
      if sz <=? P * ((v_off v + i) / P) then Fault else if v_off v + i <? sz then reading t g k i else Ret (GByte 0).
  Proof.
    intros K Hk Sh Hi Sz Ef. rewrite (one_reading (oth _ g) k v i Hk), (one_reading g k v i Hk), one_after.
    rewrite (cut q Hq path sz (one_api (n_w (g_s g)) v) 0 (one_live v) i); auto.
    - cbn [one_live l_off l_map l_obj]. change (t_page q) with P. destruct (_ <=? _); [reflexivity|]. destruct (_ <? _); reflexivity.
    - apply (one_ok g k v K Hk). lia.
    - rewrite one_shared. exact Sh.
  Qed.

  Lemma welsewhere e g k x i : prog_ok t g -> other_ok e -> g_tab g k = Some x -> ~ reaches (n_w (g_s g)) e (obj_of x) ->
    reading t (oth e g) k i = reading t g k i.
  Proof.
    intros K He Hk N. pose proof (po_thing _ _ K _ _ Hk) as T. destruct x as [v|r o].
    - destruct (Z_lt_le_dec i 0) as [|Hi1]; [rewrite (reading_past g k v i Hk), (reading_past (oth e g) k v i Hk) by lia; reflexivity|].
      destruct (Z_lt_le_dec i (m_len (v_map v))) as [Hi2|]; [|rewrite (reading_past g k v i Hk), (reading_past (oth e g) k v i Hk) by lia; reflexivity].
      rewrite (one_reading (oth _ g) k v i Hk), (one_reading g k v i Hk), one_after. f_equal. apply (elsewhere q Hq); auto.
      + apply (one_ok g k v K Hk). lia.
      + intros l [= <-]. exact N.
    - pose proof (po_thing _ _ (oth_ok e g K He) k _ Hk) as T'. rewrite (reading_eq t Ht g k _ i Hk T), (reading_eq t Ht (oth e g) k _ i Hk T').
      cbn [size_of addr_of]. destruct (_ && _) eqn:B; [|reflexivity]. f_equal. apply andb_true_iff in B as [B1 B2]. apply Z.leb_le in B1. apply Z.ltb_lt in B2.
      destruct T as (n & R). destruct (ring_byte t Ht _ _ _ _ i R (conj B1 B2)) as (E1 & E2 & E3 & _).
      destruct (ro_page _ _ _ _ _ R _ E3) as (x & Ex & Xo & Xi & Xr & Xw & Xs & Xc). rewrite <- E1 in Ex.
      change (n_w (g_s (oth e g))) with (others t e (n_w (g_s g))).
      destruct (others_page t e _ _ _ Ex) as (x' & Ex' & (S1 & S2 & S3 & S4 & S5 & S6 & S7 & S8) & C).
      assert (Eo : w_obj (others t e (n_w (g_s g))) o = w_obj (n_w (g_s g)) o) by (apply others_same_obj; [exact (ro_obj _ _ _ _ _ R)|exact N]).
      assert (Ec : p_copy x' = None) by (destruct C as [C|[_ C]]; congruence).
      unfold OsModel.load. rewrite Ex, Ex', S3, S1, S2, Xo, Eo. unfold page_byte. rewrite S1, S2, Xo, Eo, Ec, Xc. reflexivity.
  Qed.
  (** Nobody reaches what is private. *)
  Lemma wprivate e g k x i : prog_ok t g -> other_ok e -> g_tab g k = Some x -> private_thing x = true -> reading t (oth e g) k i = reading t g k i.
  Proof.
    intros K He Hk Hp. apply (welsewhere e g k x i K He Hk). intros R. destruct (po_own _ _ K _ _ Hk Hp) as [N _]. apply N.
    apply (reached_named _ e). destruct e; try contradiction; exact R.
  Qed.

  (** Pages of a copy map that the program has stored to. *)
  Lemma wcopy_kept g k v i b g' es i' : prog_ok t g -> g_tab g k = Some (TMap v) -> v_mut v = true -> win_shares (v_prot v) = false ->
    act_step t (ASet k i b) g = (Ret GNone, g') -> 0 <= i' < m_len (v_map v) -> (v_off v + i') / P = (v_off v + i) / P ->
    Forall other_ok es -> Forall (fun e => cuts e = false) es ->
    reading t (act_run t (map AOther es) g') k i' = reading t g' k i'.
  Proof.
    intros K Hk Hm Hs E Hi Ep Fo Fc. pose proof (one_ok g k v K Hk ltac:(lia)) as OK.
    assert (H : exists w', ApiModel.step q (CSet 0 i b) (one_api (n_w (g_s g)) v) = (Ret SNone, one_api w' v) /\ n_w (g_s g') = w' /\ g_tab g' = g_tab g).
    { cbn [act_step] in E. rewrite Hk, Hm in E. unfold plain, wset, lift in E. cbn [ApiModel.step]. unfold ApiModel.with_map. cbn [a_live one_api Z.eqb].
      cbn [l_mut one_live]. rewrite Hm. unfold unit_call.
      change (map_set q (l_map (one_live v)) i b (a_w (one_api (n_w (g_s g)) v))) with (map_set t (v_map v) i b (n_w (g_s g))).
      destruct (map_set t (v_map v) i b (n_w (g_s g))) as [[[]|e| | |] w'] eqn:Es; cbn in E; try discriminate E. injection E as <-.
      exists w'. split; [reflexivity|]. split; reflexivity. }
    destruct H as (w' & Es & Ew & Et).
    assert (Go : forall es g1, n_w (g_s (act_run t (map AOther es) g1)) = a_w (afters q es (one_api (n_w (g_s g1)) v)) /\ g_tab (act_run t (map AOther es) g1) = g_tab g1 /\
      afters q es (one_api (n_w (g_s g1)) v) = one_api (a_w (afters q es (one_api (n_w (g_s g1)) v))) v).
    { clear. induction es as [|e es IH]; intros g1; [auto|]. cbn [map act_run afters act_step snd]. rewrite <- one_after. exact (IH (oth e g1)). }
    destruct (Go es g') as (G1 & G2 & G3).
    rewrite (one_reading _ k v i') by (rewrite G2, Et; exact Hk). rewrite (one_reading g' k v i') by (rewrite Et; exact Hk). rewrite G1, <- G3, Ew. f_equal.
    apply (copy_kept q Hq (one_api (n_w (g_s g)) v) 0 (one_live v) i b (one_api w' v) es i'); auto. rewrite one_shared. exact Hs.
  Qed.
End Seen.
