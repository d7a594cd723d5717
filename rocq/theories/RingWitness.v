(** A 32-bit ring of three pages after 2^32 - 4096 bytes: the next bytes
    straddle the point where [wpos as usize] jumps. *)
From Coq Require Import Lia.
From Verif Require Import Base ErrorModel RingSpec RingModel SeqProofs SizeProofs RingProofs RingTheorems.

Definition w32 : target := {| t_bits := 32; t_checks := true; t_page := 4096; t_alloc := 4096 |}.

Definition cycle : list rop := [RFeed 12288; RConsume 12288].
Fixpoint cycles (k : nat) : list rop := match k with O => [] | S k' => cycle ++ cycles k' end.
Fixpoint units (k : nat) : list rout := match k with O => [] | S k' => OUnit :: OUnit :: units k' end.

Definition ring_at (p : Z) : ring := {| r_len := 12288; r_rpos := p; r_wpos := p; r_mem := fun _ => 0 |}.

Lemma cycle_once p : 0 <= p -> p + 12288 < 2 ^ 64 ->
  ring_step w32 (ring_at p) (RFeed 12288) =
    Ret ({| r_len := 12288; r_rpos := p; r_wpos := p + 12288; r_mem := fun _ => 0 |}, OUnit) /\
  ring_step w32 {| r_len := 12288; r_rpos := p; r_wpos := p + 12288; r_mem := fun _ => 0 |} (RConsume 12288) =
    Ret (ring_at (p + 12288), OUnit).
Proof.
  intros Hp Hq. unfold ring_step, ring_feed, ring_consume, ring_write_len, ring_read_len, ring_write_capacity,
    sub64, add64, usub. cbn [ring_at r_len r_rpos r_wpos r_mem w32 t_checks t_bits].
  replace (p - p) with 0 by lia. replace (p + 12288 - p) with 12288 by lia.
  rewrite (wrap_in true 64 0) by lia. rewrite (wrap_in true 64 12288) by lia. cbn [obind].
  change (as_usize w32 0) with 0. change (as_usize w32 12288) with 12288.
  rewrite (wrap_in true 32 (12288 - 0)) by lia. cbn [obind].
  change (as_u64 (Z.min 12288 (12288 - 0))) with 12288. change (as_u64 (Z.min 12288 12288)) with 12288.
  rewrite (wrap_in true 64 (p + 12288)) by lia. split; reflexivity.
Qed.

Lemma cycles_run k : forall p, 0 <= p -> p + 12288 * Z.of_nat k < 2 ^ 64 ->
  ring_run w32 (ring_at p) (cycles k) = Ret (ring_at (p + 12288 * Z.of_nat k), units k).
Proof.
  induction k as [|k IH]; intros p Hp Hq.
  - cbn [cycles ring_run units]. do 3 f_equal. lia.
  - cbn [cycles]. unfold cycle. cbn [app ring_run].
    destruct (cycle_once p Hp) as [E1 E2]; [lia|]. rewrite E1. cbn [obind fst snd].
    rewrite E2. cbn [obind fst snd]. rewrite (IH (p + 12288)) by lia. cbn [obind fst snd].
    cbn [units]. do 3 f_equal. lia.
Qed.

Lemma cycles_ok k : forall acc, Forall (rop_ok w32) (cycles k) /\ acc + 12288 * Z.of_nat k = total_after acc 12288 (cycles k).
Proof.
  induction k as [|k IH]; intros acc; cbn [cycles].
  - split; [constructor|cbn; lia].
  - unfold cycle. cbn [app total_after next_total rop_weight]. split.
    + do 2 (constructor; [cbn; unfold is_usize; cbn; lia|]). apply (IH 0).
    + rewrite <- (proj2 (IH _)). change (Z.min 12288 12288) with 12288. lia.
Qed.

(** The calls made on the empty ring at that point. *)
Definition straddle : list rop := [RStore 12288 4096 [9]; RFeed 8192; RConsume 4096; RRead 1].

Lemma straddle_run : exists r,
  ring_run w32 (ring_at (12288 * 349525)) straddle = Ret (r, [OUnit; OUnit; OUnit; OBytes [0]]).
Proof. eexists. vm_compute. reflexivity. Qed.

Lemma straddle_spec q0 q xs : q_data q0 = [] -> zlen (q_free q0) = 12288 ->
  q_run q0 straddle (Some (q, xs)) -> xs = [OUnit; OUnit; OUnit; OBytes [9]].
Proof.
  intros Hd Hf H. unfold straddle in H.
  inversion H as [| |q0' o os q1 x q2 xs1 N1 S1 R1|]; subst. clear H.
  inversion R1 as [| |q0' o os q3 x3 q4 xs3 N3 S3 R3|]; subst. clear R1.
  inversion R3 as [| |q0' o os q5 x5 q6 xs5 N5 S5 R5|]; subst. clear R3.
  inversion R5 as [| |q0' o os q7 x7 q8 xs7 N7 S7 R7|]; subst. clear R5.
  inversion R7; subst. cbn [q_step] in S1, S3, S5, S7.
  destruct S1 as [-> ->], S3 as [-> ->], S5 as [-> ->], S7 as [-> ->].
  cbn [q_append q_remove q_data q_free]. rewrite Hd. cbn [app]. do 3 f_equal. f_equal. f_equal.
  assert (HL : zlen (ztake 4096 (q_free q0)) = 4096) by (rewrite zlen_ztake by lia; lia).
  rewrite (ztake_app_r 8192) by lia. rewrite zdrop_app_r by lia. rewrite HL.
  change (8192 - 4096) with 4096. change (4096 - 4096) with 0. rewrite (zdrop_neg 0) by lia.
  change (9 :: zdrop (4096 + zlen [9]) (q_free q0)) with ([9] ++ zdrop (4096 + zlen [9]) (q_free q0)).
  rewrite (ztake_app_r 4096) by (cbn; lia). rewrite ztake_app_l by (cbn; lia). reflexivity.
Qed.

Lemma witness_32 N : Z.of_nat N = 349525 -> exists r',
  Forall (rop_ok w32) (cycles N) /\ total_after 0 12288 (cycles N) < 2 ^ 32 /\
  ring_run w32 (ring_make 12288 (fun _ => 0)) (cycles N) =
    Ret (ring_at (12288 * 349525), units N) /\
  ring_read_len w32 (ring_at (12288 * 349525)) = Ret 0 /\
  ring_run w32 (ring_at (12288 * 349525)) straddle = Ret (r', [OUnit; OUnit; OUnit; OBytes [0]]).
Proof.
  intros HN. destruct straddle_run as [r' E]. exists r'.
  destruct (cycles_ok N 0) as [Hok Htot]. rewrite HN in Htot.
  split; [exact Hok|]. split; [lia|]. split; [|split; [reflexivity|exact E]].
  pose proof (cycles_run N 0) as R. rewrite HN in R. rewrite Z.add_0_l in R. apply R; lia.
Qed.

(** Shortly after, the write slice lies over readable bytes. *)
Lemma overlap_32 : exists r xs r',
  ring_run w32 (ring_at (12288 * 349525)) [RFeed 8192; RConsume 4095] = Ret (r, xs) /\
  ring_slice_store w32 r 1 0 [7] = Ret r' /\
  ring_read_slice w32 r 2 = Ret [0; 0] /\ ring_read_slice w32 r' 2 = Ret [0; 7].
Proof.
  exists {| r_len := 12288; r_rpos := 12288 * 349525 + 4095; r_wpos := 12288 * 349525 + 8192; r_mem := fun _ => 0 |}.
  exists [OUnit; OUnit].
  exists {| r_len := 12288; r_rpos := 12288 * 349525 + 4095; r_wpos := 12288 * 349525 + 8192; r_mem := upd (fun _ => 0) 4096 7 |}.
  repeat split; vm_compute; reflexivity.
Qed.

Lemma run_app t os1 : forall r os2, ring_run t r (os1 ++ os2) =
  let* p := ring_run t r os1 in let* q := ring_run t (fst p) os2 in Ret (fst q, snd p ++ snd q).
Proof.
  induction os1 as [|o os1 IH]; intros r os2; cbn [app ring_run obind fst snd].
  - destruct (ring_run t r os2) as [[]| | | |]; reflexivity.
  - destruct (ring_step t r o) as [p| | | |]; cbn [obind]; try reflexivity. rewrite IH.
    destruct (ring_run t (fst p) os1) as [p1| | | |]; cbn [obind fst snd]; try reflexivity.
    destruct (ring_run t (fst p1) os2) as [p2| | | |]; reflexivity.
Qed.
