(** Lemmas behind C89: writing a value that lies inside a map, decided. *)
From Coq Require Import Lia.
From Verif Require Import Base ErrorModel OsModel OthersModel SizeModel MapModel MapSpec SizeProofs OsProofs MapProofs MapCreate MapOps
  ApiModel ApiSpec OthersProofs ApiProofs SpanModel SpanSpec SpanProofs SpanMap SeqProofs ExactClaims.

Section Writes.
  Variable t : target.
  Hypothesis Ht : posix_target t.
  Variable B : abi.
  Notation P := (t_page t).

  (** The pages of a map, all of them writable or none. *)
  Definition pages_are (m : mapping) (o off sz : Z) (q : bool) (w : world) : Prop :=
    o_size (w_obj w o) = sz /\
    forall p, own_page t m p -> exists e, w_vm w p = Some e /\ p_obj e = o /\ p_idx e = off / P + (p - first_page t m) /\ p_w e = q.

  Lemma store_one w0 m o off sz q shared maxw : backed t w0 m o off shared maxw -> forall w, pages_are m o off sz q w -> forall i b, 0 <= i < m_len m ->
    exists w', mem_store (kernel_mem t) (m_ptr m + i) b w = ((if (sz <=? P * ((off + i) / P)) || negb q then Fault else Ret tt), w') /\ pages_are m o off sz q w'.
  Proof.
    intros Bk w [Sz Pg] i b Hi. destruct (byte_page t Ht _ _ _ _ _ _ Bk i Hi) as (_ & Ow & I1 & I2).
    destruct (Pg _ Ow) as (e & Ev & Eo & Ei & Ew). cbn [kernel_mem mem_store]. unfold OsModel.store. rewrite Ev, Ew, Eo, Ei, I1, Sz.
    destruct q; cbn [negb]; [|exists w; rewrite orb_true_r; split; [reflexivity|split; assumption]].
    rewrite orb_false_r. destruct (sz <=? P * ((off + i) / P)); [exists w; split; [reflexivity|split; assumption]|].
    destruct (p_shared e); (eexists; split; [reflexivity|]).
    - destruct (_ <? _); [|split; assumption]. split; [cbn; rewrite put_same; reflexivity|exact Pg].
    - split; [exact Sz|]. intros p Hp. destruct (Z.eq_dec p ((m_ptr m + i) / P)) as [->|N].
      + cbn. rewrite put_same. eexists. split; [reflexivity|]. cbn. auto.
      + cbn. rewrite put_other by exact N. exact (Pg p Hp).
  Qed.
  Lemma store_run w0 m o off sz q shared maxw : backed t w0 m o off shared maxw -> forall l w, pages_are m o off sz q w -> l <> [] ->
    forall i, 0 <= i -> i + zlen l <= m_len m ->
    fst (store_bytes t (kernel_mem t) (m_ptr m + i) l w) = if (sz <=? P * ((off + i + zlen l - 1) / P)) || negb q then Fault else Ret tt.
  Proof.
    intros Bk. pose proof (P_pos t Ht) as HP. pose proof (map_end t Ht m) as ME. pose proof (bk_hi _ _ _ _ _ _ _ Bk) as Hi. pose proof (bk_lo _ _ _ _ _ _ _ Bk) as Lo.
    induction l as [|b l IH]; intros w Pg Ne i H0 H1; [congruence|]. rewrite zlen_cons in *. pose proof (zlen_nonneg l) as Hz.
    cbn [store_bytes]. destruct (store_one _ _ _ _ _ _ _ _ Bk w Pg i b ltac:(lia)) as (w' & E & Pg'). rewrite E. clear E.
    assert (Mono : (off + i) / P <= (off + i + (1 + zlen l) - 1) / P) by (apply Z.div_le_mono; lia).
    destruct q; cbn [negb]; rewrite ?orb_true_r, ?orb_false_r; [|reflexivity].
    destruct (Z.leb_spec sz (P * ((off + i) / P))) as [Le|Gt].
    { cbn [fst]. destruct (Z.leb_spec sz (P * ((off + i + (1 + zlen l) - 1) / P))); [reflexivity|nia]. }
    destruct l as [|b' l].
    { cbn [store_bytes fst]. replace (off + i + (1 + zlen (@nil byte)) - 1) with (off + i) by (cbn; lia). destruct (Z.leb_spec sz (P * ((off + i) / P))); [lia|reflexivity]. }
    assert (Ea : ptr_add t (m_ptr m + i) 1 = m_ptr m + (i + 1)) by (unfold ptr_add, as_usize; rewrite Z.mod_small; lia).
    rewrite Ea, (IH w' Pg' ltac:(discriminate) (i + 1) ltac:(lia) ltac:(lia)), orb_false_r.
    replace (off + (i + 1) + zlen (b' :: l) - 1) with (off + i + (1 + zlen (b' :: l)) - 1) by lia. reflexivity.
  Qed.

  Lemma encode_len ty v : zlen (encode t B ty v) = size_of t ty.
  Proof.
    assert (L : forall n x, zlen (to_le n x) = Z.of_nat n).
    { induction n as [|n IH]; intros x; [reflexivity|]. cbn [to_le]. rewrite zlen_cons, IH. lia. }
    pose proof (size_of_pos t (proj1 Ht) ty). unfold encode. destruct (big_endian B); [unfold zlen; rewrite rev_length; fold (zlen (to_le (Z.to_nat (size_of t ty)) v))|]; rewrite L; lia.
  Qed.
  Lemma backed_write w m o foff shared maxw q ty off v x : backed t w m o foff shared maxw -> pages_are m o foff (o_size (w_obj w o)) q w ->
    0 <= off -> off + size_of t ty <= m_len m -> x = WriteVolatile v \/ x = WriteUnaligned v ->
    fst (perform t B (kernel_mem t) m ty off x w) =
      if is_volatile x && negb ((m_ptr m + off) mod align_of B ty =? 0) then Panic
      else if (o_size (w_obj w o) <=? P * ((foff + off + size_of t ty - 1) / P)) || negb q then Fault else Ret tt.
  Proof.
    intros Bk Pg O0 Le X. pose proof (backed_span t Ht _ _ _ _ _ _ Bk) as Sp. pose proof (size_of_pos t (proj1 Ht) ty) as Sz.
    pose proof (store_run _ _ _ _ _ _ _ _ Bk (encode t B ty v) _ Pg) as E. rewrite encode_len in E.
    assert (Ne : encode t B ty v <> []) by (intros Y; pose proof (encode_len ty v) as Z0; rewrite Y in Z0; change (zlen []) with 0 in Z0; lia).
    specialize (E Ne off O0 Le).
    assert (Ep : ptr_add t (m_ptr m) off = m_ptr m + off).
    { destruct Sp as (S1 & S2 & S3). unfold ptr_add, as_usize. apply Z.mod_small. lia. }
    destruct X as [-> | ->]; cbn [perform is_volatile andb]; unfold write_volatile, write_unaligned, SpanModel.after;
      rewrite (inside_capacity t (proj1 Ht) _ Sp ty off O0 Le); cbn [obind].
    - rewrite (alignment_spec t (proj1 Ht) B _ Sp ty off O0 Le). destruct (_ =? 0); cbn [negb]; [|reflexivity].
      rewrite Ep. exact E.
    - rewrite Ep. exact E.
  Qed.
  Lemma map_write_exact h w k l ty off v x : wf w -> Forall (call_ok t) h -> let a := run t h (no_maps w) in
    a_live a k = Some l -> 0 <= off -> off + size_of t ty <= m_len (l_map l) ->
    x = WriteVolatile v \/ x = WriteUnaligned v ->
    fst (perform t B (kernel_mem t) (l_map l) ty off x (a_w a)) =
      if is_volatile x && negb ((m_ptr (l_map l) + off) mod align_of B ty =? 0) then Panic
      else if (o_size (w_obj (a_w a) (l_obj l)) <=? P * ((l_off l + off + size_of t ty - 1) / P)) || negb (prot_writes (l_prot l) || converted t h (no_maps w) k)
      then Fault else Ret tt.
  Proof.
    intros W Fa a Hl O0 Le X.
    destruct (permits_run t Ht h (no_maps w) (fun _ => false)) as [OK Pm]; auto.
    { apply (reached_ok t Ht), reach_start, W. }
    { intros k0 l0 p e Y. discriminate Y. }
    fold a in OK, Pm. pose proof (ok_live _ _ OK k l Hl) as Bk.
    apply (backed_write _ _ _ _ _ _ _ _ _ v _ Bk); try assumption. split; [reflexivity|]. intros p Hp.
    destruct (bk_pages _ _ _ _ _ _ _ Bk _ Hp) as (e & Ev & Eo & Ei & _). exists e.
    pose proof (Pm k l _ e Hl Hp Ev) as Pw. cbv beta in Pw. rewrite orb_false_r in Pw. auto.
  Qed.
End Writes.
