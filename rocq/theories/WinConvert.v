(** What a conversion does to the pages on Windows (src/map.rs:101-107, 289-295). *)
From Coq Require Import Lia.
From Verif Require Import Base Spec ErrorModel SizeModel OsModel MapModel MapSpec RingMapModel RingMapSpec SizeProofs OsProofs
  MapProofs MapCreate MapOps MirrorProofs RingMapClaims WinModel WinSpec WinProofs WinClaims WinCalls WinMapModel WinMapSpec WinSpace WinKeep WinMapProofs WinAlloc WinThings.

Section Convert.
  Variable t : target.
  Hypothesis Ht : good_target t.
  Notation P := (t_page t).
  Notation q := (as_posix t).
  Let HP : 0 < P.
  Proof. exact (pow2_pos _ (proj1 (proj2 Ht))). Qed.
  Let Hq : posix_target q.
  Proof. exact (posix_of t Ht). Qed.

  Lemma convert_pages v s s' : map_ok t s v -> 0 < m_len (v_map v) ->
    wwhole t (v_map v) (fun p l => win_protect t p l ReadWrite) s = (Ret tt, s') ->
    forall p, (own_page t (v_map v) p -> exists e, w_vm (n_w s) p = Some e /\ w_vm (n_w s') p = Some (set_prot (win_prot ReadWrite) e)) /\
              (~ own_page t (v_map v) p -> w_vm (n_w s') p = w_vm (n_w s) p).
  Proof.
    intros M L H p. pose proof (Z.mod_pos_bound (m_ptr (v_map v)) P HP) as MB.
    pose proof (mo_back _ _ _ M ltac:(lia)) as B. pose proof (whole_bounds (E:=error) q Hq _ _ _ _ _ _ B) as WB.
    change (size_bounds (E:=error) t P (m_ptr (v_map v)) (m_len (v_map v)) = Ret (P * first_page t (v_map v), P * page_count t (v_map v))) in WB.
    unfold wwhole, wbind, wout, size_page in H. rewrite WB in H. cbn [fst snd] in H.
    pose proof (page_count_pos q Hq _ _ _ _ _ _ B) as PC. change (page_count q (v_map v)) with (page_count t (v_map v)) in PC.
    assert (F0 : 0 <= first_page t (v_map v)).
    { unfold first_page. apply Z.div_pos; [|lia]. pose proof (bk_lo _ _ _ _ _ _ _ B). cbn in *. lia. }
    apply (win_protect_spec t Ht) in H as (_ & _ & PCh); [|nia].
    specialize (PCh p). assert (E1 : P * first_page t (v_map v) / P = first_page t (v_map v)) by (rewrite Z.mul_comm; apply Z.div_mul; lia).
    assert (E2 : (P * first_page t (v_map v) + P * page_count t (v_map v) - 1) / P = first_page t (v_map v) + page_count t (v_map v) - 1).
    { symmetry. apply Z.div_unique with (r := P - 1); lia. }
    rewrite E1, E2 in PCh. unfold own_page.
    replace (first_page t (v_map v) + page_count t (v_map v) - 1 + 1) with (first_page t (v_map v) + page_count t (v_map v)) in PCh by lia.
    destruct (Z.leb_spec (first_page t (v_map v)) p), (Z.ltb_spec p (first_page t (v_map v) + page_count t (v_map v))); cbn [andb] in PCh;
      (split; intros X; [first [lia | exact PCh]|first [lia | exact PCh]]).
  Qed.

  Lemma convert_act a k v g x g' : map_ok t (g_s g) v -> g_tab g k = Some (TMap v) -> 0 < m_len (v_map v) ->
    a = AToMut k /\ v_mut v = false \/ a = AToMap k /\ v_mut v = true -> act_step t a g = (Ret x, g') ->
    forall p, (own_page t (v_map v) p -> exists e, w_vm (n_w (g_s g)) p = Some e /\ w_vm (n_w (g_s g')) p = Some (set_prot (win_prot ReadWrite) e)) /\
              (~ own_page t (v_map v) p -> w_vm (n_w (g_s g')) p = w_vm (n_w (g_s g)) p).
  Proof.
    intros M Hk L Ha H. destruct Ha as [[-> Hm]|[-> Hm]]; cbn [act_step] in H; unfold with_mut, with_map in H; rewrite Hk, Hm in H;
      [unfold winto_map_mut in H|unfold winto_map in H]; unfold wconvert in H;
      destruct (wwhole t (v_map v) _ (g_s g)) as [r s'] eqn:E; destruct r as [[]|e| | |]; cbn [finish] in H; try discriminate H;
      injection H as _ <-; exact (convert_pages v _ _ M L E).
  Qed.
End Convert.
