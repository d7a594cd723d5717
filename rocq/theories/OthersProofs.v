(** What other processes can do to the program's mappings: nothing but take
    back private copies behind the new end of a file. *)
From Coq Require Import Lia.
From Verif Require Import Base ErrorModel OsModel OthersModel MapModel MapSpec OsProofs MapProofs MapCreate ApiModel ApiSpec.

Record interfered (w w' : world) : Prop := {
  iv_vm : forall p, match w_vm w p, w_vm w' p with
            | Some e, Some e' => same_place e e' /\ (p_copy e' = p_copy e \/ (p_copy e' = None /\ p_shared e = false))
            | None, None => True
            | _, _ => False
            end;
  iv_next : w_next w <= w_next w';
  iv_fd : w_fd w' = w_fd w;
  iv_orc : w_orc w' = w_orc w;
  iv_disk : forall o i, o_disk (w_obj w' o) i = o_disk (w_obj w o) i \/ o_disk (w_obj w' o) i = o_data (w_obj w' o) i;
  iv_wf : wf w -> wf w'
}.

Lemma interfered_refl w : interfered w w.
Proof.
  split; auto; try lia. intros p. destruct (w_vm w p) as [e|]; [|exact Logic.I]. split; [apply same_place_refl|auto].
Qed.
Lemma interfered_vm w w' p e : interfered w w' -> w_vm w p = Some e -> exists e', w_vm w' p = Some e' /\ same_place e e' /\
  (p_copy e' = p_copy e \/ (p_copy e' = None /\ p_shared e = false)).
Proof.
  intros H E. pose proof (iv_vm _ _ H p) as V. rewrite E in V. destruct (w_vm w' p) as [e'|]; [|contradiction]. exists e'. tauto.
Qed.
Lemma interfered_none w w' p : interfered w w' -> (w_vm w' p = None <-> w_vm w p = None).
Proof.
  intros H. pose proof (iv_vm _ _ H p) as V. destruct (w_vm w p), (w_vm w' p); try contradiction; split; congruence.
Qed.

Section Others.
  Variable t : target.

  Lemma resize_interfered o sz w : 0 <= sz < 2 ^ 64 -> interfered w (resize_obj t o sz w).
  Proof.
    intros Hs. pose proof (resize_obj_spec t o sz w) as R. cbv zeta in R. destruct R as (V & N & F & S & O & Z1 & D & K). split.
    - intros p. specialize (V p). destruct (w_vm w p), (w_vm (resize_obj t o sz w) p); try exact V. tauto.
    - lia.
    - exact F.
    - reflexivity.
    - intros o' i. destruct (Z.eq_dec o' o) as [->|Ho]; [|rewrite (O _ Ho); auto]. rewrite D, K. destruct (i <? _); auto.
    - intros W. apply (wf_change _ _ W).
      + intros p e' He. left. specialize (V p). rewrite He in V. destruct (w_vm w p) as [e|]; [|contradiction]. exists e. split; [reflexivity|apply V].
      + lia.
      + intros fd f. rewrite F. auto.
      + intros path o'. rewrite S. auto.
      + intros o'. destruct (Z.eq_dec o' o) as [->|Ho]; [right; rewrite Z1; exact Hs|left; rewrite (O _ Ho); reflexivity].
  Qed.

  Lemma names_interfered w f : (forall path o, f path = Some o -> wf w -> o < w_next w) -> interfered w (set_fs w f).
  Proof.
    intros Hf. split; cbn; auto; try lia.
    - intros p. destruct (w_vm w p) as [e|]; [|exact Logic.I]. split; [apply same_place_refl|auto].
    - intros W. split; cbn; try apply W. intros path o H. exact (Hf _ _ H W).
  Qed.

  Lemma others_interfered e w : other_ok e -> interfered w (others t e w).
  Proof.
    intros He. destruct e as [path|path|from to|path sz|path sz|path off d sync]; cbn [others other_ok] in *; unfold at_name.
    - destruct (w_fs w path) eqn:Ef; [apply interfered_refl|]. split; cbn; auto; try lia.
      + intros p. destruct (w_vm w p) as [e|]; [|exact Logic.I]. split; [apply same_place_refl|auto].
      + intros o i. unfold put. destruct (o =? w_next w); auto.
      + intros W. split; cbn.
        * intros p e H. apply (wf_vm _ W) in H. lia.
        * intros fd f H. apply (wf_fd _ W) in H. lia.
        * intros q o H. unfold put in H. destruct (q =? path); [injection H as <-; lia|]. apply (wf_fs _ W) in H. lia.
        * intros o. unfold put. destruct (o =? w_next w); [cbn; lia|apply (wf_size _ W)].
    - apply names_interfered. intros q o H W. unfold put in H. destruct (q =? path); [discriminate H|]. exact (wf_fs _ W _ _ H).
    - destruct (w_fs w from) as [o|] eqn:Ef; [|apply interfered_refl].
      apply names_interfered. intros q o' H W. unfold put in H. destruct (q =? to); [injection H as <-; exact (wf_fs _ W _ _ Ef)|exact (wf_fs _ W _ _ H)].
    - destruct (w_fs w path); [|apply interfered_refl]. destruct (_ <? _); [apply resize_interfered, He|apply interfered_refl].
    - destruct (w_fs w path); [|apply interfered_refl]. destruct (_ <? _); [apply resize_interfered, He|apply interfered_refl].
    - destruct (w_fs w path) as [o|]; [|apply interfered_refl]. unfold write_obj. split; cbn; auto; try lia.
      + intros p. destruct (w_vm w p) as [e|]; [|exact Logic.I]. split; [apply same_place_refl|auto].
      + intros o' i. unfold put. destruct (Z.eqb_spec o' o) as [->|]; [|auto]. cbn. destruct sync; [|auto]. unfold splice. destruct (_ && _); auto.
      + intros W. split; cbn; try apply W. intros o'. unfold put. destruct (Z.eqb_spec o' o) as [->|]; apply (wf_size _ W).
  Qed.
End Others.
