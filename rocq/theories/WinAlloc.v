(** Proofs about the mapping API on Windows: allocation, operations on pages,
    conversion, access, drop. *)
From Coq Require Import Lia.
From Verif Require Import Base Spec ErrorModel SizeModel OsModel MapModel MapSpec RingMapModel RingMapSpec SizeProofs OsProofs
  MapProofs MapCreate MapOps MirrorProofs RingMapClaims WinModel WinSpec WinProofs WinClaims WinCalls WinMapModel WinMapSpec WinSpace WinKeep WinMapProofs.

Section Maps.
  Variable t : target.
  Hypothesis Ht : good_target t.
  Notation P := (t_page t).
  Notation G := (t_alloc t).
  Notation q := (as_posix t).
  Let HP : 0 < P.
  Proof. exact (pow2_pos _ (proj1 (proj2 Ht))). Qed.
  Let HG : 0 < G.
  Proof. exact (pow2_pos _ (proj1 (proj2 (proj2 Ht)))). Qed.
  Let Hq : posix_target q.
  Proof. exact (posix_of t Ht). Qed.
  Let HB : 0 < t_bits t.
  Proof. destruct Ht as [[E|E] _]; lia. Qed.
  Let HGW : G < 2 ^ t_bits t.
  Proof. destruct Ht as ([E|E] & _ & _ & _ & H & _); rewrite E; lia. Qed.
  Let HPG : P <= G.
  Proof. apply Ht. Qed.

  (** ** alloc *)
  Lemma walloc_round off l : 0 <= off < P -> is_usize t l ->
    (let* a := uadd (E:=error) t off l in let* r := size_round t (size_alloc t) a in usub t r off) =
    if off + l + G <? 2 ^ t_bits t then Ret (G * ((off + l + G - 1) / G) - off)
    else if t_checks t then Panic
    else (let* a := uadd (E:=error) t off l in let* r := size_round t (size_alloc t) a in usub t r off).
  Proof.
    intros Ho [Hl1 Hl2]. unfold size_alloc.
    destruct (Z.ltb_spec (off + l + G) (2 ^ t_bits t)) as [Lt|Ge].
    - unfold uadd at 1. rewrite wrap_in by lia. cbn [obind].
      rewrite (size_round_in t HB G (proj1 (proj2 (proj2 Ht))) HGW) by lia. cbn [obind].
      pose proof (Z.div_mod (off + l + G - 1) G ltac:(lia)). pose proof (Z.mod_pos_bound (off + l + G - 1) G HG).
      unfold usub. rewrite wrap_in by lia. reflexivity.
    - destruct (t_checks t) eqn:Ec; [|reflexivity].
      unfold uadd at 1. destruct (Z_lt_le_dec (off + l) (2 ^ t_bits t)) as [A|A].
      + rewrite wrap_in by lia. cbn [obind]. unfold size_round, uadd. rewrite wrap_out by lia. rewrite Ec. reflexivity.
      + rewrite wrap_out by lia. rewrite Ec. reflexivity.
  Qed.

  Definition walloc_rest (o : options) (off n : Z) : WT error mapping :=
    wbind (wout (uadd t off n)) (fun total => wbind (win_map_anon t total (op_protect o))
      (fun ptr => wret {| m_ptr := ptr_add t ptr off; m_len := n |})).

  Lemma walloc_run o s r s' : options_ok t o -> walloc_fits t o \/ t_checks t = true -> walloc t o s = (r, s') ->
    (exists n, 0 <= n /\ walloc_fits t o /\ walloc_len t o n /\ op_offset o mod P + n < 2 ^ t_bits t /\
       walloc_rest o (op_offset o mod P) n s = (r, s')) \/
    (r = Panic /\ ~ walloc_fits t o /\ s' = s).
  Proof.
    intros (_ & Ol & Oo) Fit H. unfold walloc in H.
    pose proof (Z.mod_pos_bound (op_offset o) P HP) as D2.
    unfold wbind at 1, wout at 1 in H. unfold size_page in H.
    rewrite (size_offset_eq t HB P (proj1 (proj2 Ht)) ltac:(lia)) in H by exact Oo.
    set (off := op_offset o mod P) in *.
    assert (Rn : forall l, is_usize t l -> (op_len o = ExtMin l \/ op_len o = ExtEnd /\ l = 1) ->
      wbind (wout (let* a := uadd t off l in let* r := size_round t (size_alloc t) a in usub t r off)) (walloc_rest o off) s = (r, s') ->
      (exists n, 0 <= n /\ walloc_fits t o /\ walloc_len t o n /\ off + n < 2 ^ t_bits t /\ walloc_rest o off n s = (r, s')) \/
      (r = Panic /\ ~ walloc_fits t o /\ s' = s)).
    { intros l Ul El K.
      assert (Ft : walloc_fits t o <-> off + l + G < 2 ^ t_bits t).
      { unfold walloc_fits. destruct El as [-> | [-> ->]]; fold off; tauto. }
      unfold wbind at 1, wout at 1 in K. rewrite (walloc_round off l D2 Ul) in K.
      destruct (Z.ltb_spec (off + l + G) (2 ^ t_bits t)) as [Lt|Ge].
      - left. exists (G * ((off + l + G - 1) / G) - off). destruct Ul as [U1 U2].
        pose proof (Z.div_mod (off + l + G - 1) G ltac:(lia)). pose proof (Z.mod_pos_bound (off + l + G - 1) G HG).
        split; [lia|]. split; [apply Ft, Lt|]. split; [|split; [lia|exact K]].
        unfold walloc_len. fold off. destruct El as [-> | [-> ->]].
        + split; [lia|]. replace (off + (G * ((off + l + G - 1) / G) - off)) with ((off + l + G - 1) / G * G) by lia. apply Z.mod_mul. lia.
        + assert (E1 : (off + 1 + G - 1) / G = 1) by (symmetry; apply Z.div_unique with (r := off); lia). rewrite E1. lia.
      - destruct Fit as [Fit|Fit]; [apply Ft in Fit; lia|]. rewrite Fit in K. injection K as <- <-.
        right. split; [reflexivity|]. split; [|reflexivity]. rewrite Ft. lia. }
    assert (Ex : forall l, is_usize t l -> (op_len o = ExtExact l \/ op_len o = ExtMax l) ->
      walloc_rest o off l s = (r, s') ->
      (exists n, 0 <= n /\ walloc_fits t o /\ walloc_len t o n /\ off + n < 2 ^ t_bits t /\ walloc_rest o off n s = (r, s')) \/
      (r = Panic /\ ~ walloc_fits t o /\ s' = s)).
    { intros l [U1 U2] El K.
      assert (Ft : walloc_fits t o <-> off + l < 2 ^ t_bits t).
      { unfold walloc_fits. destruct El as [-> | ->]; fold off; tauto. }
      destruct (Z_lt_le_dec (off + l) (2 ^ t_bits t)) as [Lt|Ge].
      - left. exists l. split; [lia|]. split; [apply Ft, Lt|]. split; [|split; [lia|exact K]].
        unfold walloc_len. destruct El as [-> | ->]; reflexivity.
      - destruct Fit as [Fit|Fit]; [apply Ft in Fit; lia|].
        unfold walloc_rest, wbind at 1, wout, uadd in K. rewrite wrap_out in K by lia. rewrite Fit in K. injection K as <- <-.
        right. split; [reflexivity|]. split; [|reflexivity]. rewrite Ft. lia. }
    destruct (op_len o) as [|l|l|l] eqn:El; cbn [extent_ok] in Ol.
    - apply (Rn 1); [unfold is_usize; lia|auto|exact H].
    - apply (Ex l Ol); [auto|exact H].
    - apply (Rn l Ol); [auto|exact H].
    - apply (Ex l Ol); [auto|exact H].
  Qed.

  Lemma walloc_spec o s r s' : wf (n_w s) -> options_ok t o -> walloc_fits t o \/ t_checks t = true -> walloc t o s = (r, s') ->
    keeps t s s' /\ same_rest s s' /\
    match r with
    | Ret m => walloc_fits t o /\ walloc_len t o (m_len m) /\ w_next (n_w s) < w_next (n_w s') /\
        map_made t s s' m (w_next (n_w s)) (op_offset o mod P) (op_offset o mod P + m_len m) (op_protect o) /\
        (forall i, o_data (w_obj (n_w s') (w_next (n_w s))) i = 0) /\
        op_offset o mod P + m_len m <= o_size (w_obj (n_w s') (w_next (n_w s)))
    | Err e => walloc_fits t o /\ same_space s s' /\ (e_op e = MapAnonymousHandle \/ e_op e = MapAnonymousView)
    | Panic => ~ walloc_fits t o /\ s' = s
    | _ => False
    end.
  Proof.
    intros W Oo Fit H. pose proof (Z.mod_pos_bound (op_offset o) P HP) as D2.
    apply (walloc_run o s r s' Oo Fit) in H as [(n & Hn & F & L & Lt & H)|(-> & F & ->)].
    2: { split; [apply ev_refl|]. split; [split; reflexivity|auto]. }
    set (off := op_offset o mod P) in *. unfold walloc_rest, wbind at 1, wout, uadd in H. rewrite wrap_in in H by lia.
    apply wbind_run in H as [(pg & s1 & E & H)|H].
    - assert (X : r = Ret {| m_ptr := ptr_add t pg off; m_len := n |} /\ s' = s1) by (injection H; auto). destruct X as [-> ->]. clear H.
      assert (U : is_usize t (off + n)) by (unfold is_usize; lia).
      pose proof (map_anon_keeps t Ht _ _ _ _ _ W U E) as K.
      destruct (win_map_anon_spec t Ht _ _ _ _ _ U E) as (l & _ & R & h & _ & V & Dz & Ds).
      split; [exact K|]. split; [exact R|]. cbn [m_len m_ptr]. split; [exact F|]. split; [exact L|].
      pose proof V as (V0 & Vg & Vl & Vh & Va & Vs).
      pose proof (npages_pos t HP (off + n) V0) as Np.
      destruct (Vs (pg / P) ltac:(lia)) as (e & He & Eo & _).
      split; [rewrite <- Eo; exact (wf_vm _ (ev_wf _ _ _ _ _ _ K W) _ _ He)|].
      assert (Ep : ptr_add t pg off = pg + off) by (unfold ptr_add, as_usize; apply Z.mod_small; lia).
      assert (Eg : off mod G = off) by (apply Z.mod_small; lia).
      assert (Eb : map_base t {| m_ptr := ptr_add t pg off; m_len := n |} = pg) by (rewrite Ep; apply (map_base_eq t Ht); [exact Vg|lia]).
      split; [|split; [exact Dz|exact Ds]].
      split; rewrite ?Eb; cbn [m_ptr m_len]; rewrite ?Eg; try lia. rewrite Z.sub_diag. exact V.
    - assert (U : is_usize t (off + n)) by (unfold is_usize; lia).
      assert (K : forall r1, win_map_anon t (off + n) (op_protect o) s = (r1, s') -> keeps t s s').
      { intros r1 E. exact (map_anon_keeps t Ht _ _ _ _ _ W U E). }
      destruct H as [(e & E & ->)|[[E ->]|[[E ->]|[E ->]]]];
        (split; [exact (K _ E)|]); destruct (win_map_anon_spec t Ht _ _ _ _ _ U E) as (l & _ & R & M); try contradiction.
      split; [exact R|]. destruct M as (M & op & x & -> & M0). split; [exact F|]. split; [exact M|].
      destruct M0 as [[-> _]|[-> _]]; cbn; auto.
  Qed.

  (** ** What a new map is *)
  Lemma page_split b d : b mod P = 0 -> (b + d) / P = b / P + d / P /\ (b + d) mod P = d mod P.
  Proof.
    intros E. pose proof (Z.div_mod b P ltac:(lia)) as D. rewrite E in D.
    replace (b + d) with (d + (b / P) * P) by lia. rewrite Z.div_add, Z.mod_add by lia. lia.
  Qed.
  Lemma npages_shift d l : d / P + npages t (d mod P + l) = npages t (d + l).
  Proof.
    unfold npages. replace (d + l + P - 1) with (d mod P + l + P - 1 + (d / P) * P) by (pose proof (Z.div_mod d P ltac:(lia)); lia).
    rewrite Z.div_add by lia. lia.
  Qed.
  Lemma npages_le a b : a <= b -> npages t a <= npages t b.
  Proof. intros H. unfold npages. apply Z.div_le_mono; lia. Qed.
  Lemma word_pages : exists k, 2 ^ t_bits t = P * k.
  Proof.
    destruct (pow2_divide P (2 ^ t_bits t) (proj1 (proj2 Ht))) as (k & E); [exists (t_bits t); split; [lia|reflexivity]|lia|]. exists k. lia.
  Qed.
  Lemma view_pages_end b V : b mod P = 0 -> b + V <= 2 ^ t_bits t - P -> b + P * npages t V <= 2 ^ t_bits t - P.
  Proof.
    intros E H. destruct word_pages as (k & K). pose proof (npages_bounds t HP V) as N.
    pose proof (Z.div_mod b P ltac:(lia)) as D. rewrite E in D. rewrite K in *.
    assert (b / P + npages t V <= k - 1) by nia. nia.
  Qed.

  Lemma made_in s s' m o off V p : map_made t s s' m o off V p ->
    n_view s' (map_base t m) = Some (npages t V) /\ 0 <= m_len m /\ G <= map_base t m /\ map_base t m <= m_ptr m < map_base t m + G /\
    m_ptr m + m_len m <= 2 ^ t_bits t - P /\
    (forall pg, own_page t m pg -> in_view t (map_base t m) (npages t V) pg) /\
    map_base t m / P <= first_page t m /\ first_page t m + page_count t m <= map_base t m / P + npages t V.
  Proof.
    intros [(V0 & Vg & Vl & Vh & Va & Vs) Mp Ml Mo Mf]. set (b := map_base t m) in *.
    pose proof (aligned_page t Ht _ Vg) as Ba. pose proof (Z.mod_pos_bound off G HG) as Bd. set (d := off mod G) in *.
    destruct (page_split b d Ba) as [S1 S2]. pose proof (npages_shift d (m_len m)) as S3.
    pose proof (npages_le _ _ Mf) as S4. pose proof (Z.div_pos d P ltac:(lia) HP) as S5.
    assert (BG : G <= b).
    { pose proof (Z.div_mod b G ltac:(lia)) as D. rewrite Vg in D. assert (0 < b / G) by nia. nia. }
    split; [exact (ov_new _ _ _ _ _ Va)|]. split; [exact Ml|]. split; [exact BG|]. split; [lia|]. split; [lia|].
    unfold own_page, in_view, first_page, page_count. rewrite Mp, S1, S2. split; [intros pg; lia|lia].
  Qed.

  Lemma made_backed s s' m o off V p : map_made t s s' m o off V p -> 0 < m_ptr m mod P + m_len m ->
    backed q (n_w s') m o off (win_shares p) (prot_writes p) /\
    (forall pg e, own_page t m pg -> w_vm (n_w s') pg = Some e -> p_w e = prot_writes p /\ p_copy e = None /\ p_lock e = false).
  Proof.
    intros M C. pose proof (made_in _ _ _ _ _ _ _ M) as (I1 & I2 & I3 & I4 & I5 & I6 & I7 & I8).
    destruct M as [(V0 & Vg & Vl & Vh & Va & Vs) Mp Ml Mo Mf]. set (b := map_base t m) in *.
    pose proof (aligned_page t Ht _ Vg) as Ba. pose proof (Z.mod_pos_bound off G HG) as Bd. set (d := off mod G) in *.
    destruct (page_split b d Ba) as [S1 S2].
    assert (Bo : (off - d) mod P = 0).
    { apply (aligned_page t Ht). unfold d. rewrite Zminus_mod_idemp_r, Z.sub_diag. apply Z.mod_0_l. lia. }
    destruct (page_split (off - d) d Bo) as [S3 S4]. replace (off - d + d) with off in * by lia.
    split.
    - split; cbn [t_page t_bits as_posix]; try lia.
      + change (P * (first_page t m + page_count t m) <= 2 ^ t_bits t - P).
        pose proof (view_pages_end b V Ba Vh). pose proof (Z.div_mod b P ltac:(lia)). nia.
      + split; [lia|]. rewrite Mp, S2, S4. reflexivity.
      + intros pg Hp. change (own_page t m pg) in Hp. change (first_page q m) with (first_page t m).
        destruct (Vs pg (I6 pg Hp)) as (e & He & E1 & E2 & E3 & E4 & E5 & E6 & E7 & E8).
        exists e. split; [exact He|]. split; [exact E1|]. split; [|auto 6].
        rewrite E2, S3. unfold first_page. rewrite Mp, S1. lia.
    - intros pg e Hp He. destruct (Vs pg (I6 pg Hp)) as (e' & He' & _ & _ & _ & E4 & _ & E6 & E7 & _).
      assert (e' = e) by congruence. subst e'. auto.
  Qed.

  (** ** Reading and writing *)
  Lemma store_ev (addr : Z) b s r w' : OsModel.store (E:=error) t addr b (n_w s) = (r, w') ->
    (r = Fault /\ with_w s w' = with_w s (n_w s)) \/
    (r = Ret tt /\ exists e, w_vm (n_w s) (addr / P) = Some e /\ p_w e = true /\
       if p_shared e then evolves t none none (fun o => o = p_obj e) s (with_w s w')
       else evolves t none (fun pg => pg = addr / P) none s (with_w s w')).
  Proof.
    intros H. change (OsModel.store (E:=error) q addr b (n_w s) = (r, w')) in H.
    apply (store_effect q) in H as [[-> ->]|(-> & F & S & N & e & He & Hw & Z & C)]; [auto|right].
    split; [reflexivity|]. exists e. change (t_page q) with P in *. split; [exact He|]. split; [exact Hw|].
    assert (NE : forall o, named w' o -> named (n_w s) o).
    { intros o [(fd & f & X & <-)|(pp & X)]; [left; exists fd, f; rewrite <- F; auto|right; exists pp; rewrite <- S; auto]. }
    destruct C as [(Es & V & O1 & O2)|(Es & O & c & V)]; rewrite Es.
    - apply ev_steady; cbn; rewrite ?V, ?N; try (reflexivity || apply Z.le_refl).
      + intros p e0 X. exists e0. split; [exact X|]. split; [apply kept_refl|auto].
      + intros o _ _. apply Z.
      + intros o _ _. destruct (Z.eq_dec o (p_obj e)) as [->|D]; [auto|]. right. rewrite O1 by exact D. reflexivity.
      + intros o X. left. apply NE, X.
      + intros [W1 W2 W3 W4]. split; rewrite ?V, ?F, ?S, ?N; auto. intros o. rewrite (proj1 (Z o)). auto.
    - apply ev_steady; cbn; rewrite ?V, ?N, ?O; try (reflexivity || apply Z.le_refl); try (intros; reflexivity); try (intros; right; intros; reflexivity).
      + intros p e0 X. unfold put. destruct (Z.eqb_spec p (addr / P)) as [->|D].
        * exists (set_copy c e). assert (e0 = e) by congruence. subst e0. split; [reflexivity|]. split; [|auto].
          unfold kept, set_copy. cbn. repeat split; auto. intros; congruence.
        * exists e0. split; [exact X|]. split; [apply kept_refl|auto].
      + intros o X. left. apply NE, X.
      + intros [W1 W2 W3 W4]. split; rewrite ?F, ?S, ?N, ?O; auto. intros p e0 X. rewrite V in X. unfold put in X.
        destruct (Z.eqb_spec p (addr / P)) as [->|D]; [|eauto]. injection X as <-. unfold set_copy; cbn. eauto.
  Qed.

  (** ** Operations on pages *)
  Lemma bounds_nonneg {E} u ptr len (b : Z * Z) : pow2 u -> u < 2 ^ t_bits t -> is_usize t ptr ->
    size_bounds (E:=E) t u ptr len = Ret b -> 0 <= fst b.
  Proof.
    intros Hu Hw Hp H. pose proof (pow2_pos _ Hu) as U. unfold size_bounds in H. rewrite (size_offset_eq t HB u Hu Hw) in H by exact Hp. cbn [obind] in H.
    destruct (uadd t len (ptr mod u)) as [x|e| | |]; try discriminate H. cbn [obind] in H.
    destruct (size_round t u x) as [y|e| | |]; try discriminate H. cbn [obind] in H. injection H as <-. cbn [fst].
    pose proof (Z.mod_le ptr u (proj1 Hp) U). lia.
  Qed.
  Lemma other_same_keeps s s' : other_state s s' -> same_space s s' -> keeps t s s'.
  Proof.
    intros (O1 & O2 & O3 & O4 & O5 & O6 & O7 & O8) H. apply ev_flush.
    split; [exact H|]. repeat split; auto; intros; rewrite O5; reflexivity.
  Qed.

  (** A call on a range of pages changes nothing but protections and locks. *)
  Definition page_call (f : Z -> Z -> WT error unit) : Prop := forall a len s r s', 0 <= a -> f a len s = (r, s') ->
    keeps t s s' /\ match r with Ret _ | Err _ => True | _ => False end.
  Lemma protect_call : page_call (fun a l => win_protect t a l ReadWrite).
  Proof.
    intros a len s r s' Ha H. apply (win_protect_spec t Ht) in H as [O H]; [|exact Ha]. destruct r as [[]|e| | |]; try contradiction; (split; [|exact I]).
    - refine (ev_pages t _ _ _ _ _ _ O (proj2 H)). intros e. unfold kept, set_prot. cbn. repeat split; auto.
    - exact (other_same_keeps _ _ O (proj1 H)).
  Qed.
  Lemma lock_call : page_call (win_lock t).
  Proof.
    intros a len s r s' Ha H. apply (win_lock_spec t Ht) in H as [O H]; [|exact Ha]. destruct r as [[]|e| | |]; try contradiction; (split; [|exact I]).
    - refine (ev_pages t _ _ _ _ _ _ O (proj2 H)). intros e. unfold kept, set_lock. cbn. repeat split; auto.
    - exact (other_same_keeps _ _ O (proj1 H)).
  Qed.
  Lemma unlock_call : page_call (win_unlock t).
  Proof.
    intros a len s r s' Ha H. apply (win_unlock_spec t Ht) in H as [O H]; [|exact Ha]. destruct r as [[]|e| | |]; try contradiction; (split; [|exact I]).
    - refine (ev_pages t _ _ _ _ _ _ O (proj2 H)). intros e. unfold kept, set_lock. cbn. repeat split; auto.
    - exact (other_same_keeps _ _ O (proj1 H)).
  Qed.
  Lemma advise_call adv : page_call (fun a l => win_advise a l adv).
  Proof. intros a len s r s' Ha H. assert (E : r = Ret tt /\ s' = s) by (injection H; auto). destruct E as [-> ->]. split; [apply ev_refl|exact I]. Qed.
  Lemma flush_call fd mode : page_call (fun a l => win_flush t a fd l mode).
  Proof.
    intros a len s r s' Ha H. apply (win_flush_any t Ht) in H as [K H]; [|exact Ha].
    split; [exact (ev_flush t _ _ K)|]. destruct r as [[]|e| | |]; auto.
  Qed.

  Lemma whole_keeps m f s r s' : is_usize t (m_ptr m) -> page_call f -> wwhole t m f s = (r, s') -> keeps t s s'.
  Proof.
    intros Hp HF H. unfold wwhole in H. apply wbind_run in H as [(b & s1 & E & H)|H]; unfold wout in *.
    - assert (X : size_bounds (E:=error) t (size_page t) (m_ptr m) (m_len m) = Ret b /\ s1 = s) by (injection E; auto). destruct X as [X ->].
      refine (proj1 (HF _ _ _ _ _ _ H)). exact (bounds_nonneg P _ _ _ (proj1 (proj2 Ht)) ltac:(lia) Hp X).
    - destruct H as [(e & E & ->)|[[E ->]|[[E ->]|[E ->]]]]; (assert (s' = s) by (injection E; auto)); subst s'; apply ev_refl.
  Qed.
  Lemma ranged_keeps op m off len f s r s' : page_call f -> wranged t op m off len f s = (r, s') -> keeps t s s'.
  Proof.
    intros HF H. unfold wranged in H. apply wbind_run in H as [(e & s1 & E & H)|H]; unfold wout in E || unfold wout in H.
    - assert (s1 = s) by (injection E; auto). subst s1. destruct (m_len m <? e).
      + assert (s' = s) by (injection H; auto). subst s'. apply ev_refl.
      + apply wbind_run in H as [(b & s1 & E1 & H)|H]; unfold wout in *.
        * assert (X : size_bounds (E:=error) t (size_page t) (ptr_add t (m_ptr m) off) len = Ret b /\ s1 = s) by (injection E1; auto). destruct X as [X ->].
          refine (proj1 (HF _ _ _ _ _ _ H)). refine (bounds_nonneg P _ _ _ (proj1 (proj2 Ht)) ltac:(lia) _ X).
          unfold ptr_add, as_usize, is_usize. apply Z.mod_pos_bound. lia.
        * destruct H as [(e0 & E0 & ->)|[[E0 ->]|[[E0 ->]|[E0 ->]]]]; (assert (s' = s) by (injection E0; auto)); subst s'; apply ev_refl.
    - destruct H as [(e & E & ->)|[[E ->]|[[E ->]|[E ->]]]]; (assert (s' = s) by (injection E; auto)); subst s'; apply ev_refl.
  Qed.

  (** ** Drop *)
  Lemma wdrop_spec m s r s' : 0 <= m_len m -> G <= map_base t m -> m_ptr m + m_len m <= 2 ^ t_bits t - P -> wdrop t m s = (r, s') ->
    r = Ret tt /\
    if m_len m =? 0 then s' = s
    else exists b, unmap_view t (map_base t m) s = (b, s') /\ calls s s' [(WUnmap (map_base t m), ok b)] /\
      match b with Ret _ => view_removed t s s' (map_base t m) | Err _ => wq s s' | _ => False end.
  Proof.
    intros Hl Hb Hh H. unfold wdrop in H. destruct (Z.eqb_spec (m_len m) 0) as [E0|N0].
    - rewrite E0 in H. cbn in H. injection H as <- <-. auto.
    - rewrite (proj2 (Z.ltb_lt 0 (m_len m))) in H by lia. unfold size_alloc in H.
      pose proof (Z.mod_pos_bound (m_ptr m) G HG). pose proof (Z.div_mod (m_ptr m) G ltac:(lia)) as D. fold (map_base t m) in D.
      rewrite (size_bounds_in t HB G (proj1 (proj2 (proj2 Ht))) HGW) in H by (unfold is_usize; lia). fold (map_base t m) in H.
      unfold win_unmap in H. destruct (unmap_view t (map_base t m) s) as [b s1] eqn:E. pose proof E as E2.
      apply unmap_view_spec in E2 as [L E2]. destruct b as [[]|e| | |]; try contradiction; injection H as <- <-; (split; [reflexivity|]).
      + exists (Ret tt). split; [reflexivity|]. split; [exact L|].
        destruct E2 as (n & A & B & C & Dd & _). exists n. split; [exact A|]. split; [exact C|].
        split; [intros a; rewrite B; unfold put; reflexivity|intros a; rewrite Dd; reflexivity].
      + exists (Err e). auto.
  Qed.
End Maps.
