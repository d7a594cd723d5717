(** What an anonymous map on Windows is when its size does not fit the word
    and overflow is not checked (src/map.rs:1230-1240). *)
From Coq Require Import Lia.
From Verif Require Import Base Spec ErrorModel SizeModel OsModel MapModel MapSpec RingMapModel RingMapSpec SizeProofs OsProofs
  MapProofs MapCreate MapOps MirrorProofs RingMapClaims WinModel WinSpec WinProofs WinClaims WinCalls WinMapModel WinMapSpec WinSpace WinKeep WinMapProofs WinAlloc.

Section Wraps.
  Variable t : target.
  Hypothesis Ht : good_target t.
  Notation P := (t_page t).
  Notation G := (t_alloc t).
  Let HP : 0 < P.
  Proof. exact (pow2_pos _ (proj1 (proj2 Ht))). Qed.
  Let HG : 0 < G.
  Proof. exact (pow2_pos _ (proj1 (proj2 (proj2 Ht)))). Qed.
  Let HB : 0 < t_bits t.
  Proof. destruct Ht as [[E|E] _]; lia. Qed.
  Let HGW : G < 2 ^ t_bits t /\ 2 * G <= 2 ^ t_bits t.
  Proof.
    assert (L : G < 2 ^ t_bits t) by (destruct Ht as ([E|E] & _ & _ & _ & H & _); rewrite E; lia). split; [exact L|].
    assert (P2 : pow2 (2 ^ t_bits t)) by (exists (t_bits t); split; [lia|reflexivity]).
    destruct (pow2_divide G (2 ^ t_bits t) (proj1 (proj2 (proj2 Ht))) P2 ltac:(lia)) as (k & E). rewrite E in *. assert (1 < k) by nia. nia.
  Qed.
  Let HPG : P <= G.
  Proof. apply Ht. Qed.
  Let PG : pow2 G.
  Proof. exact (proj1 (proj2 (proj2 Ht))). Qed.

  Lemma once x : 2 ^ t_bits t <= x < 2 * 2 ^ t_bits t -> x mod 2 ^ t_bits t = x - 2 ^ t_bits t.
  Proof. intros H. rewrite <- (Z.mod_add _ (-1)) by lia. rewrite Z.mod_small by lia. lia. Qed.

  Definition wanon_tail (off n total : Z) (p : protect) : WT error mapping :=
    wbind (win_map_anon t total p) (fun ptr => wret {| m_ptr := ptr_add t ptr off; m_len := n |}).

  Lemma wanon_one off n total p s m s' : 0 <= off < P -> is_usize t total -> wanon_tail off n total p s = (Ret m, s') ->
    m_len m = n /\ m_ptr m = map_base t m + off /\ 0 < total <= 2 ^ t_bits t - P - G /\ same_rest s s' /\
    view_of t s s' (w_next (n_w s)) 0 total p (map_base t m) /\ forall i, o_data (w_obj (n_w s') (w_next (n_w s))) i = 0.
  Proof.
    intros Ho U H. unfold wanon_tail in H. apply wbind_run in H as [(pg & s1 & E & H)|H].
    2: { destruct H as [(e & _ & X)|[[_ X]|[[_ X]|[_ X]]]]; discriminate X. }
    injection H as <- <-. destruct (win_map_anon_spec t Ht _ _ _ _ _ U E) as (l & _ & R & h & _ & V & Dz & _).
    pose proof V as (V0 & Vg & Vl & Vh & _).
    assert (GP : G <= pg) by (pose proof (Z.div_mod pg G ltac:(lia)) as D; rewrite Vg in D; assert (0 < pg / G) by nia; nia).
    assert (Ep : ptr_add t pg off = pg + off) by (unfold ptr_add, as_usize; apply Z.mod_small; lia).
    assert (Eb : map_base t {| m_ptr := ptr_add t pg off; m_len := n |} = pg) by (rewrite Ep; apply (map_base_eq t Ht); [exact Vg|lia]).
    rewrite Eb. cbn [m_len m_ptr]. split; [reflexivity|]. split; [exact Ep|]. split; [lia|]. auto.
  Qed.

  Lemma walloc_wraps o s m s' : options_ok t o -> t_checks t = false -> ~ walloc_fits t o -> walloc t o s = (Ret m, s') ->
    let off := op_offset o mod P in
    exists V, match op_len o with
    | ExtEnd => False
    | ExtMin l => 2 ^ t_bits t < off + l /\ m_len m = G - off /\ V = G
    | ExtExact l | ExtMax l => 2 ^ t_bits t < off + l /\ m_len m = l /\ V = off + l - 2 ^ t_bits t
    end /\
    m_ptr m = map_base t m + off /\ same_rest s s' /\ view_of t s s' (w_next (n_w s)) 0 V (op_protect o) (map_base t m) /\
    forall i, o_data (w_obj (n_w s') (w_next (n_w s))) i = 0.
  Proof.
    intros (_ & Ol & Oo) Ck Nf H off. pose proof (Z.mod_pos_bound (op_offset o) P HP) as D2. fold off in D2.
    unfold walloc in H. unfold wbind at 1, wout at 1 in H. unfold size_page in H.
    rewrite (size_offset_eq t HB P (proj1 (proj2 Ht)) ltac:(lia)) in H by exact Oo. fold off in H.
    unfold walloc_fits in Nf. fold off in Nf.
    assert (Tail : forall n, 0 <= n < 2 ^ t_bits t -> forall K,
      wbind (wout (uadd t off n)) (fun total => wanon_tail off n total (op_protect o)) s = K ->
      wanon_tail off n (if off + n <? 2 ^ t_bits t then off + n else off + n - 2 ^ t_bits t) (op_protect o) s = K).
    { intros n Hn K <-. unfold uadd. destruct (Z.ltb_spec (off + n) (2 ^ t_bits t)).
      - rewrite wrap_in by lia. reflexivity.
      - rewrite wrap_out by lia. rewrite Ck, once by lia. reflexivity. }
    assert (None_ : forall n total, total = 0 \/ total = 2 ^ t_bits t - G -> wanon_tail off n total (op_protect o) s = (Ret m, s') -> False).
    { intros n total Hx K. apply wanon_one in K as (_ & _ & X & _); [lia|exact D2|unfold is_usize; lia]. }
    assert (Rnd : forall l, 0 <= l < 2 ^ t_bits t -> ~ off + l + G < 2 ^ t_bits t ->
        wbind (wout (let* a := uadd t off l in let* r := size_round t (size_alloc t) a in usub t r off))
          (fun n => wbind (wout (uadd t off n)) (fun total => wanon_tail off n total (op_protect o))) s = (Ret m, s') ->
        2 ^ t_bits t < off + l /\ wanon_tail off (G - off) G (op_protect o) s = (Ret m, s')).
    { intros l Hl Nl K. unfold size_alloc in K. unfold wbind at 1, wout at 1 in K. unfold uadd at 1 in K.
      destruct (Z_lt_le_dec (off + l) (2 ^ t_bits t)) as [Lt|Ge].
      - exfalso. rewrite wrap_in in K by lia. cbn [obind] in K. destruct (Z.eq_dec (off + l + G) (2 ^ t_bits t)) as [Ee|Ne].
        + rewrite (size_round_edge t HB G PG ltac:(lia)) in K by exact Ee. rewrite Ck in K. cbn [obind] in K. unfold usub in K. rewrite wrap_in in K by lia.
          apply Tail in K; [|lia]. revert K. destruct (Z.ltb_spec (off + (off + l - off)) (2 ^ t_bits t)); [|lia].
          apply None_. right. lia.
        + rewrite (size_round_over t HB G PG ltac:(lia)) in K by (unfold is_usize; lia). rewrite Ck in K. cbn [obind] in K. unfold usub in K.
          destruct (Z.eq_dec off 0) as [O0|O0].
          * rewrite wrap_in in K by lia. apply Tail in K; [|lia]. revert K. destruct (Z.ltb_spec (off + (0 - off)) (2 ^ t_bits t)); [|lia]. apply None_. left; lia.
          * rewrite wrap_out in K by lia. rewrite Ck in K.
            replace ((0 - off) mod 2 ^ t_bits t) with (2 ^ t_bits t - off) in K by (apply (Z.mod_unique _ _ (-1)); lia).
            apply Tail in K; [|lia]. revert K. destruct (Z.ltb_spec (off + (2 ^ t_bits t - off)) (2 ^ t_bits t)); [lia|]. apply None_. left; lia.
      - rewrite wrap_out in K by lia. rewrite Ck, once in K by lia. cbn [obind] in K.
        rewrite (size_round_in t HB G PG ltac:(lia)) in K by lia. cbn [obind] in K. unfold usub in K.
        destruct (Z.eq_dec (off + l) (2 ^ t_bits t)) as [Ee|Ne].
        + exfalso. rewrite (Z.div_small (off + l - 2 ^ t_bits t + G - 1)) in K by lia. rewrite Z.mul_0_r in K.
          assert (O1 : 0 < off) by lia. rewrite wrap_out in K by lia. rewrite Ck in K.
          replace ((0 - off) mod 2 ^ t_bits t) with (2 ^ t_bits t - off) in K by (apply (Z.mod_unique _ _ (-1)); lia).
          apply Tail in K; [|lia]. revert K. destruct (Z.ltb_spec (off + (2 ^ t_bits t - off)) (2 ^ t_bits t)); [lia|]. apply None_. left; lia.
        + split; [lia|]. replace ((off + l - 2 ^ t_bits t + G - 1) / G) with 1 in K by (apply (Z.div_unique _ _ _ (off + l - 2 ^ t_bits t - 1)); lia).
          rewrite Z.mul_1_r, wrap_in in K by lia. apply Tail in K; [|lia]. revert K.
          destruct (Z.ltb_spec (off + (G - off)) (2 ^ t_bits t)); [|lia]. replace (off + (G - off)) with G by lia. auto. }
    assert (Ex : forall l, 0 <= l < 2 ^ t_bits t -> ~ off + l < 2 ^ t_bits t ->
        wbind (wret l) (fun n => wbind (wout (uadd t off n)) (fun total => wanon_tail off n total (op_protect o))) s = (Ret m, s') ->
        2 ^ t_bits t < off + l /\ wanon_tail off l (off + l - 2 ^ t_bits t) (op_protect o) s = (Ret m, s')).
    { intros l Hl Nl K. change (wbind (wout (uadd t off l)) (fun total => wanon_tail off l total (op_protect o)) s = (Ret m, s')) in K.
      apply Tail in K; [|lia]. destruct (Z.ltb_spec (off + l) (2 ^ t_bits t)); [lia|].
      destruct (Z.eq_dec (off + l) (2 ^ t_bits t)) as [Ee|Ne]; [|split; [lia|exact K]].
      exfalso. revert K. apply None_. left; lia. }
    change (wbind (match op_len o with
               | ExtEnd => wout (let* a := uadd t off 1 in let* r := size_round t (size_alloc t) a in usub t r off)
               | ExtMin l => wout (let* a := uadd t off l in let* r := size_round t (size_alloc t) a in usub t r off)
               | ExtMax l => wret l
               | ExtExact l => wret l
               end) (fun len => wbind (wout (uadd t off len)) (fun total => wanon_tail off len total (op_protect o))) s = (Ret m, s')) in H.
    unfold extent_ok, is_usize in Ol.
    assert (Ug : is_usize t G) by (unfold is_usize; lia).
    destruct (op_len o) as [|l|l|l].
    - exfalso. assert (H1 : 0 <= 1 < 2 ^ t_bits t) by lia. destruct (Rnd 1 H1 Nf H) as [X _]. lia.
    - destruct (Ex l Ol Nf H) as [X K]. apply wanon_one in K as (E1 & E2 & _ & R); [|exact D2|unfold is_usize; lia]. eauto 10.
    - destruct (Rnd l Ol Nf H) as [X K]. apply wanon_one in K as (E1 & E2 & _ & R); [|exact D2|exact Ug]. eauto 10.
    - destruct (Ex l Ol Nf H) as [X K]. apply wanon_one in K as (E1 & E2 & _ & R); [|exact D2|unfold is_usize; lia]. eauto 10.
  Qed.
End Wraps.
