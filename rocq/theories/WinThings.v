(** What holds of the maps and rings a program has on Windows, after any
    history of calls. *)
From Coq Require Import Lia.
From Verif Require Import Base Spec ErrorModel SizeModel OsModel MapModel MapSpec RingMapModel RingMapSpec SizeProofs OsProofs
  MapProofs MapCreate MapOps MirrorProofs RingMapClaims WinModel WinSpec WinProofs WinClaims WinCalls WinMapModel WinMapSpec WinSpace WinKeep WinMapProofs WinAlloc.

(** ** The invariant *)
Definition obj_of (x : thing) : Z := match x with TMap v => v_obj v | TRing _ o => o end.

Record map_ok (t : target) (s : win) (v : held) : Prop := {
  mo_len : 0 <= m_len (v_map v);
  mo_base : t_alloc t <= map_base t (v_map v);
  mo_high : m_ptr (v_map v) + m_len (v_map v) <= 2 ^ t_bits t - t_page t;
  mo_view : exists n, n_view s (map_base t (v_map v)) = Some n /\
     forall p, own_page t (v_map v) p -> in_view t (map_base t (v_map v)) n p;
  mo_back : 0 < m_ptr (v_map v) mod t_page t + m_len (v_map v) ->
     backed (as_posix t) (n_w s) (v_map v) (v_obj v) (v_off v) (win_shares (v_prot v)) (prot_writes (v_prot v));
  mo_w : v_w v = true -> forall p e, own_page t (v_map v) p -> w_vm (n_w s) p = Some e -> p_w e = true;
  mo_anon : v_anon v = true -> 0 <= v_off v /\ v_off v + m_len (v_map v) <= o_size (w_obj (n_w s) (v_obj v));
  mo_obj : v_obj v < w_next (n_w s)
}.

Record ring_ok (t : target) (s : win) (r : ring_alloc) (o n : Z) : Prop := {
  ro_n : 0 < n;
  ro_len : ra_len r = t_page t * n;
  ro_align : ra_ptr r mod t_page t = 0;
  ro_low : t_page t <= ra_ptr r;
  ro_high : ra_ptr r + 2 * ra_len r <= 2 ^ t_bits t - t_page t;
  ro_view : n_view s (ra_ptr r) = Some n /\ n_view s (ra_ptr r + ra_len r) = Some n;
  ro_page : forall k, 0 <= k < 2 * n -> exists e, w_vm (n_w s) (ra_ptr r / t_page t + k) = Some e /\
     p_obj e = o /\ p_idx e = k mod n /\ p_r e = true /\ p_w e = true /\ p_shared e = true /\ p_copy e = None;
  ro_size : t_page t * n <= o_size (w_obj (n_w s) o);
  ro_obj : o < w_next (n_w s);
  ro_maxw : forall k e, 0 <= k < 2 * n -> w_vm (n_w s) (ra_ptr r / t_page t + k) = Some e -> p_maxw e = true
}.

Definition thing_ok (t : target) (s : win) (x : thing) : Prop :=
  match x with TMap v => map_ok t s v | TRing r o => exists n, ring_ok t s r o n end.

Record prog_ok (t : target) (g : prog) : Prop := {
  po_wf : wf (n_w (g_s g));
  po_space : space_ok t (g_s g);
  po_keys : forall k x, g_tab g k = Some x -> k < g_cnt g;
  po_thing : forall k x, g_tab g k = Some x -> thing_ok t (g_s g) x;
  po_apart : forall k x j y a, g_tab g k = Some x -> g_tab g j = Some y -> k <> j -> bases_of t x a -> ~ bases_of t y a;
  po_own : forall k x, g_tab g k = Some x -> private_thing x = true -> ~ named (n_w (g_s g)) (obj_of x) /\
     forall j y, g_tab g j = Some y -> k <> j -> obj_of y <> obj_of x
}.

(** A page of the thing. *)
Definition thing_page (t : target) (x : thing) (p : Z) : Prop :=
  match x with
  | TMap v => own_page t (v_map v) p
  | TRing r _ => ra_ptr r / t_page t <= p < ra_ptr r / t_page t + 2 * (ra_len r / t_page t)
  end.

Section Things.
  Variable t : target.
  Hypothesis Ht : good_target t.
  Notation P := (t_page t).
  Notation G := (t_alloc t).
  Notation q := (as_posix t).
  Let HP : 0 < P.
  Proof. exact (pow2_pos _ (proj1 (proj2 Ht))). Qed.
  Let HG : 0 < G.
  Proof. exact (pow2_pos _ (proj1 (proj2 (proj2 Ht)))). Qed.
  Let Hq : posix_target q.
  Proof. exact (posix_of t Ht). Qed.
  Let HB : 0 < t_bits t.
  Proof. destruct Ht as [[E|E] _]; lia. Qed.
  Let HGW : G < 2 ^ t_bits t.
  Proof. destruct Ht as ([E|E] & _ & _ & _ & H & _); rewrite E; lia. Qed.
  Let HPG : P <= G.
  Proof. apply Ht. Qed.

  (** Every page of a thing lies in one of its views. *)
  Lemma thing_in_view s x p : thing_ok t s x -> thing_page t x p -> exists a n, bases_of t x a /\ n_view s a = Some n /\ in_view t a n p.
  Proof.
    intros H Hp. destruct x as [v|r o]; cbn -[Z.mul Z.add] in *.
    - destruct (mo_view _ _ _ H) as (n & V & I). exists (map_base t (v_map v)), n. auto.
    - destruct H as (n & H). destruct (ro_view _ _ _ _ _ H) as [V1 V2].
      pose proof (ro_len _ _ _ _ _ H) as L. rewrite L in *. assert (E : P * n / P = n) by (rewrite Z.mul_comm; apply Z.div_mul; lia). rewrite E in Hp.
      destruct (Z.lt_ge_cases p (ra_ptr r / P + n)) as [A|A].
      + exists (ra_ptr r), n. unfold in_view. split; [auto|]. split; [exact V1|lia].
      + exists (ra_ptr r + P * n), n. unfold in_view. split; [auto|]. split; [exact V2|].
        replace (ra_ptr r + P * n) with (ra_ptr r + n * P) by lia. rewrite Z.div_add by lia. lia.
  Qed.
  Lemma bases_view s x a : thing_ok t s x -> bases_of t x a -> exists n, n_view s a = Some n.
  Proof.
    intros H Ha. destruct x as [v|r o]; cbn -[Z.mul Z.add] in *.
    - subst a. destruct (mo_view _ _ _ H) as (n & V & _). eauto.
    - destruct H as (n & H). destruct (ro_view _ _ _ _ _ H) as [V1 V2]. destruct Ha as [-> | ->]; eauto.
  Qed.

  (** A thing lives on when its views do. *)
  Lemma thing_ev (X T Y : Z -> Prop) s s' x : space_ok t s -> evolves t X T Y s s' -> (forall a, X a -> ~ bases_of t x a) ->
    (private_thing x = true -> ~ named (n_w s) (obj_of x)) -> thing_ok t s x -> thing_ok t s' x.
  Proof.
    intros So [N1 P1 V1 W1 Z1 O1 A1 F1 S1] HX Hn H.
    assert (PG : forall p e, thing_page t x p -> w_vm (n_w s) p = Some e -> exists e', w_vm (n_w s') p = Some e' /\ kept e e').
    { intros p e Hp He. destruct (thing_in_view s x p H Hp) as (b & k & Bb & Vb & Ib).
      destruct (P1 b k p e Vb Ib He) as [(a & n & Xa & Va & Ia)|(e' & He' & K & _)]; [exfalso|eauto].
      rewrite (so_apart _ _ So a n b k p Va Vb Ia Ib) in Xa. exact (HX _ Xa Bb). }
    assert (VW : forall a n, bases_of t x a -> n_view s a = Some n -> n_view s' a = Some n).
    { intros a n Ba Va. destruct (V1 a n Va) as [Xa|V]; [destruct (HX _ Xa Ba)|exact V]. }
    destruct x as [v|r o]; cbn -[Z.mul Z.add] in *.
    - destruct H as [M1 M2 M3 (n & M4 & M4') M5 M6 M7 M8]. split; auto.
      + exists n. split; [apply VW; auto|exact M4'].
      + intros C. apply (backed_kept q (n_w s)); [exact (M5 C)|]. intros p e Hp He. exact (PG p e Hp He).
      + intros Ew p e Hp He.
        assert (C : 0 < m_ptr (v_map v) mod P + m_len (v_map v)).
        { unfold own_page, page_count in Hp. pose proof (npages_bounds t HP (m_ptr (v_map v) mod P + m_len (v_map v))).
          pose proof (Z.mod_pos_bound (m_ptr (v_map v)) P HP). destruct (Z.eq_dec (m_ptr (v_map v) mod P + m_len (v_map v)) 0); [|lia]. nia. }
        destruct (bk_pages _ _ _ _ _ _ _ (M5 C) p Hp) as (e0 & He0 & _).
        destruct (PG p e0 Hp He0) as (e' & He' & K1 & K2 & K3 & K4 & K5 & K6 & K7). assert (e' = e) by congruence. subst e'.
        apply K6. exact (M6 Ew p e0 Hp He0).
      + intros Ea. rewrite Z1; auto.
      + lia.
    - destruct H as (n & [R1 R2 R3 R4 R5 [R6 R6'] R7 R8 R9 R10]). exists n. split; auto; try lia.
      + intros k Hk. destruct (R7 k Hk) as (e & He & E1 & E2 & E3 & E4 & E5 & E6).
        destruct (PG (ra_ptr r / P + k) e) as (e' & He' & K1 & K2 & K3 & K4 & K5 & K6 & K7); [|exact He|].
        { rewrite R2. replace (P * n) with (n * P) by lia. rewrite Z.div_mul by lia. lia. }
        exists e'. split; [exact He'|]. rewrite K1, K2, K3. auto 10.
      + rewrite Z1; auto.
      + intros k e1 Hk He1. destruct (R7 k Hk) as (e & He & _).
        destruct (PG (ra_ptr r / P + k) e) as (e' & He' & K1 & K2 & K3 & K4 & _); [|exact He|].
        { rewrite R2. replace (P * n) with (n * P) by lia. rewrite Z.div_mul by lia. lia. }
        assert (e1 = e') by congruence. subst e1. rewrite K4. exact (R10 k e Hk He).
  Qed.

  (** Bytes of a private thing stay when neither its pages nor its object are
      written to. *)
  Lemma bytes_ev (X T Y : Z -> Prop) s s' x i : space_ok t s -> evolves t X T Y s s' -> (forall a, X a -> ~ bases_of t x a) ->
    private_thing x = true -> ~ named (n_w s) (obj_of x) -> thing_ok t s x ->
    (forall p, T p -> ~ thing_page t x p) -> ~ Y (obj_of x) -> 0 <= i < size_of x ->
    OsModel.load (E:=error) t (n_w s') (addr_of x + i) = OsModel.load t (n_w s) (addr_of x + i).
  Proof.
    intros So Ev HX Hp Hn H HT HY Hi. destruct Ev as [N1 P1 V1 W1 Z1 O1 A1 F1 S1].
    assert (Ho : obj_of x < w_next (n_w s)) by (destruct x as [v|r o]; [apply H|destruct H as (n & H); apply H]).
    assert (TP : thing_page t x ((addr_of x + i) / P) /\ exists e, w_vm (n_w s) ((addr_of x + i) / P) = Some e /\ p_obj e = obj_of x /\ p_r e = true).
    { destruct x as [v|r o]; cbn -[Z.mul Z.add] in *.
      - assert (C : 0 < m_ptr (v_map v) mod P + m_len (v_map v)) by (pose proof (Z.mod_pos_bound (m_ptr (v_map v)) P HP); lia).
        pose proof (mo_back _ _ _ H C) as B. destruct (byte_page q Hq _ _ _ _ _ _ B i Hi) as (_ & OP & _).
        destruct (byte_entry q Hq _ _ _ _ _ _ B i Hi) as (e & He & Eo & _ & _ & _ & _ & Er & _).
        split; [exact OP|]. exists e. auto.
      - destruct H as (n & H). pose proof (ro_len _ _ _ _ _ H) as L. rewrite L in *. pose proof (ro_n _ _ _ _ _ H).
        replace (P * n) with (n * P) in * by lia. rewrite Z.div_mul by lia.
        destruct (page_split t Ht (ra_ptr r) i (ro_align _ _ _ _ _ H)) as [E1 E2]. rewrite E1.
        assert (Hk : 0 <= i / P < 2 * n) by (split; [apply Z.div_pos; lia|apply Z.div_lt_upper_bound; lia]).
        split; [lia|]. destruct (ro_page _ _ _ _ _ H _ Hk) as (e & He & Eo & _ & Er & _). exists e. auto. }
    destruct TP as (TP & e & He & Eo & Er).
    destruct (thing_in_view s x _ H TP) as (b & k & Bb & Vb & Ib).
    destruct (P1 _ _ _ e Vb Ib He) as [(a & n & Xa & Va & Ia)|(e' & He' & (K1 & K2 & K3 & K4 & K5 & K6 & K7) & C)].
    - exfalso. rewrite (so_apart _ _ So a n b k _ Va Vb Ia Ib) in Xa. exact (HX _ Xa Bb).
    - assert (Ec : p_copy e' = p_copy e).
      { destruct C as [C|[C|[C _]]]; [destruct (HT _ C TP)|exact C|]. rewrite Eo in C. contradiction. }
      assert (Ed : forall j, o_data (w_obj (n_w s') (obj_of x)) j = o_data (w_obj (n_w s) (obj_of x)) j) by (destruct (O1 _ Ho Hn); [contradiction|auto]).
      unfold OsModel.load, page_byte. rewrite He, He', (K5 Er), Er, K1, K2, Ec, Eo, (Z1 _ Ho Hn).
      cbn [negb]. destruct (_ <=? _); [reflexivity|]. destruct (p_copy e); [reflexivity|]. rewrite Ed. reflexivity.
  Qed.
End Things.
