(** Rings over histories of any length: the exact set of capacities that stay
    queues for ever (C80), and C34-C43 for them without a bound on the bytes
    carried. *)
From Coq Require Import Lia Znumtheory.
From Verif Require Import Base ErrorModel RingSpec RingModel RingExactSpec RingProofs RingTheorems RingClaims
  RingExact RingExactClaims RingLive PropertiesRing.

(** ** C80.  [exact_positions] is necessary and sufficient. *)
Theorem C80_ring_exact_iff : forall t cap, good_target t -> 0 < cap -> 2 * cap < 2 ^ t_bits t ->
  (exact_positions t cap <-> forall m os, Forall (rop_ok t) os -> ring_answers t cap m os).
Proof. exact ring_answers_iff. Qed.
(** A 2^62-byte ring without overflow checks carries 2^64 bytes and three more. *)
Definition turn (n : Z) : list rop := [RFeed n; RConsume n].
Definition lap : list rop := turn (2 ^ 62) ++ turn (2 ^ 62) ++ turn (2 ^ 62) ++ turn (2 ^ 62).
Definition x_os : list rop := lap ++ [RWriteAll [1;2;3]].
Definition x_ex : ring :=
  match ring_run (r64 false) (ring_make (2 ^ 62) zeros) x_os with Ret (r, _) => r | _ => ring_make 1 zeros end.
Lemma x_exact c : exact_positions (r64 c) (2 ^ 62).
Proof. left. exists 4. reflexivity. Qed.
Lemma x_ok : Forall (rop_ok (r64 false)) x_os.
Proof. repeat constructor; cbn; unfold is_usize; cbn; lia. Qed.
Example C80_ring_case : exact_positions (r64 false) (2 ^ 62) /\ Forall (rop_ok (r64 false)) x_os /\
  (exists r xs, ring_run (r64 false) (ring_make (2 ^ 62) zeros) lap = Ret (r, xs) /\ r_wpos r = 0) /\
  (exists r, ring_run (r64 false) x_ex [RRead 9] = Ret (r, [OBytes [1;2;3]])) /\
  ~ exact_positions (r64 false) 12288 /\
  (** with checks on, capacities that do not divide 2^64 are exact, up to the panic *)
  exact_positions (r64 true) (3 * 2 ^ 60) /\
  let n := 3 * 2 ^ 60 in
  (exists r, ring_run (r64 true) (ring_make n zeros) (turn n ++ turn n ++ turn n ++ turn n ++ turn n ++ [RFeed (2 ^ 60 - 1)]) =
     Ret (r, repeat OUnit 11)) /\
  ring_run (r64 true) (ring_make n zeros) (turn n ++ turn n ++ turn n ++ turn n ++ turn n ++ [RFeed (2 ^ 60)]) = Panic.
Proof.
  split; [apply x_exact|]. split; [apply x_ok|].
  split; [eexists _, _; split; [vm_compute; reflexivity|reflexivity]|].
  split; [eexists; vm_compute; reflexivity|].
  split; [intros [D|[_ D]]; [apply Znumtheory.Zdivide_mod in D; vm_compute in D; discriminate D|discriminate D]|].
  split; [right; split; reflexivity|]. cbv zeta.
  split; [eexists; vm_compute; reflexivity|vm_compute; reflexivity].
Qed.
Print Assumptions C80_ring_exact_iff.

Theorem C80_infinite_exact_iff : forall t cap, good_target t -> 0 < cap -> 2 * cap < 2 ^ t_bits t ->
  (exact_positions t cap <-> forall m os, Forall (irop_ok t cap) os -> iring_answers t cap m os).
Proof. exact iring_answers_iff. Qed.
Definition iturn (n : Z) : list irop := [IFeed n; IConsume n].
Definition y_os : list irop :=
  iturn (2 ^ 62) ++ iturn (2 ^ 62) ++ iturn (2 ^ 62) ++ iturn (2 ^ 62 - 2) ++ [IWriteAll [1;2;3;4;5]; IRead 2].
Definition y_ex : iring :=
  match iring_run (r64 false) (iring_make (2 ^ 62) zeros) y_os with Ret (r, _) => r | _ => iring_make 1 zeros end.
Lemma y_ok : Forall (irop_ok (r64 false) (2 ^ 62)) y_os.
Proof. repeat constructor; cbn; unfold is_usize; cbn; lia. Qed.
Example C80_infinite_case : Forall (irop_ok (r64 false) (2 ^ 62)) y_os /\ i_wpos y_ex = 3 /\
  exists r, iring_run (r64 false) y_ex [IRead 9] = Ret (r, [OBytes [3;4;5]]).
Proof. split; [apply y_ok|]. split; [vm_compute; reflexivity|]. eexists. vm_compute. reflexivity. Qed.
Print Assumptions C80_infinite_exact_iff.

(** ** C34-C40 on those rings. *)
Lemma x_live : ring_live (r64 false) (2 ^ 62) x_os x_ex.
Proof.
  split; [lia|]. split; [reflexivity|]. split; [apply x_exact|]. split; [apply x_ok|].
  exists zeros. eexists. vm_compute. reflexivity.
Qed.

Theorem C34_fifo_exact : forall t cap m os r xs,
  good_target t -> 0 < cap -> 2 * cap < 2 ^ t_bits t -> exact_positions t cap ->
  Forall (rop_ok t) os -> ring_run t (ring_make cap m) os = Ret (r, xs) ->
  Forall plain os -> Forall no_error xs ->
  exists rest, ring_read_slice t r (umax t) = Ret rest /\
    flat_map bytes_in (combine os xs) = flat_map bytes_out (combine os xs) ++ rest.
Proof. intros t cap m os r xs Hg. exact (live_fifo t Hg cap m os r xs). Qed.
Example C34_fifo_exact_case :
  let os := [RWriteAll [1;2;3]; RRead 2; RWrite [4;5;6;7]; RRead 2] in
  exact_positions (r64 false) 4 /\ Forall plain os /\
  exists r xs, ring_run (r64 false) (ring_make 4 zeros) os = Ret (r, xs) /\ Forall no_error xs /\
    ring_read_slice (r64 false) r 9 = Ret [5;6].
Proof.
  cbv zeta. split; [left; exists (2 ^ 62); reflexivity|]. split; [repeat constructor|].
  eexists _, _. split; [vm_compute; reflexivity|]. split; [repeat constructor|vm_compute; reflexivity].
Qed.
Print Assumptions C34_fifo_exact.

Theorem C36_store_private_exact : forall t cap os r max i d,
  good_target t -> ring_live t cap os r -> is_usize t max -> is_usize t i ->
  exists data w, ring_read_slice t r (umax t) = Ret data /\ ring_write_slice t r (umax t) = Ret w /\
  match ring_slice_store t r max i d with
  | Ret r' =>
    i + zlen d <= Z.min (zlen w) max /\
    ring_read_slice t r' (umax t) = Ret data /\
    ring_write_slice t r' (umax t) = Ret (ztake i w ++ d ++ zdrop (i + zlen d) w)
  | Panic => Z.min (zlen w) max < i + zlen d
  | _ => False
  end.
Proof. intros t cap os r max i d Hg. exact (live_store t Hg cap os r max i d). Qed.
Example C36_exact_case : ring_live (r64 false) (2 ^ 62) x_os x_ex /\
  match ring_slice_store (r64 false) x_ex 9 2 [7;8] with
  | Ret r => ring_read_slice (r64 false) r 9 = Ret [1;2;3] /\ ring_write_slice (r64 false) r 5 = Ret [0;0;7;8;0]
  | _ => False
  end.
Proof. split; [apply x_live|]. vm_compute. split; reflexivity. Qed.
Print Assumptions C36_store_private_exact.

Theorem C37_write_all_exact : forall t cap os r b,
  good_target t -> ring_live t cap os r ->
  exists data wl,
    ring_read_slice t r (umax t) = Ret data /\ ring_write_len t r = Ret wl /\
    match ring_write_all t r b with
    | Ret (r', res) => ~ overflows t (r_wpos r) (Z.min (zlen b) wl) /\
      exists data' wl', ring_read_slice t r' (umax t) = Ret data' /\ ring_write_len t r' = Ret wl' /\
      ((zlen b <= wl /\ res = None /\ data' = data ++ b /\ wl' = wl - zlen b) \/
       (wl < zlen b /\ res = Some (IoSimple WriteZero) /\ data' = data ++ ztake wl b /\ wl' = 0))
    | Panic => overflows t (r_wpos r) (Z.min (zlen b) wl)
    | _ => False
    end.
Proof. intros t cap os r b Hg. exact (live_write_all t Hg cap os r b). Qed.
Example C37_exact_case : ring_live (r64 false) (2 ^ 62) x_os x_ex /\
  (exists r, ring_write_all (r64 false) x_ex [4;5] = Ret (r, None)) /\
  match ring_run (r64 false) x_ex [RFeed (2 ^ 62 - 4)] with
  | Ret (r, _) => match ring_write_all (r64 false) r [4;5] with
    | Ret (r', res) => res = Some (IoSimple WriteZero) /\ ring_write_len (r64 false) r' = Ret 0 | _ => False end
  | _ => False
  end.
Proof.
  split; [apply x_live|]. split; [eexists; vm_compute; reflexivity|]. vm_compute. split; reflexivity.
Qed.
Print Assumptions C37_write_all_exact.

Theorem C38_clear_exact : forall t cap os r os2 m2,
  good_target t -> ring_live t cap os r -> Forall no_feed os2 -> Forall (rop_ok t) os2 ->
  ring_read_len t (ring_clear r) = Ret 0 /\ ring_write_len t (ring_clear r) = Ret cap /\
  match ring_run t (ring_clear r) os2, ring_run t (ring_make cap m2) os2 with
  | Ret (_, xs), Ret (_, ys) => xs = ys
  | Panic, Panic => True
  | _, _ => False
  end.
Proof. intros t cap os r os2 m2 Hg. exact (live_clear t Hg cap os r os2 m2). Qed.
Example C38_exact_case : ring_live (r64 false) (2 ^ 62) x_os x_ex /\
  exists r, ring_run (r64 false) (ring_clear x_ex) [RWriteAll [6;7]; RRead 9] = Ret (r, [OUnit; OBytes [6;7]]).
Proof. split; [apply x_live|]. eexists. vm_compute. reflexivity. Qed.
Print Assumptions C38_clear_exact.

Theorem C39_read_until_exact : forall t cap os r c,
  good_target t -> ring_live t cap os r ->
  exists data r' got,
    ring_read_slice t r (umax t) = Ret data /\ ring_read_until t r c = Ret (r', got) /\
    ring_read_slice t r' (umax t) = Ret (zdrop (zlen got) data) /\
    got ++ zdrop (zlen got) data = data /\
    (exists l, (got = l ++ [c] \/ (got = l /\ l = data)) /\ ~ In c l).
Proof. intros t cap os r c Hg. exact (live_until t Hg cap os r c). Qed.
Example C39_exact_case : ring_live (r64 false) (2 ^ 62) x_os x_ex /\
  exists r, ring_read_until (r64 false) x_ex 2 = Ret (r, [1;2]).
Proof. split; [apply x_live|]. eexists. vm_compute. reflexivity. Qed.
Print Assumptions C39_read_until_exact.

Theorem C40_bytes_exact : forall t cap os r,
  good_target t -> ring_live t cap os r ->
  exists rd wr,
    ring_chunk t r = Ret rd /\ ring_remaining t r = Ret (zlen rd) /\
    ring_chunk_mut t r = Ret wr /\ ring_remaining_mut t r = Ret (zlen wr) /\
    (forall n, 0 <= n <= zlen rd -> exists r', ring_advance t r n = Ret r' /\
       ring_chunk t r' = Ret (zdrop n rd)) /\
    (forall d, match ring_put_slice t r d with
       | Ret r' => zlen d <= zlen wr /\ ~ overflows t (r_wpos r) (zlen d) /\
                   ring_chunk t r' = Ret (rd ++ d) /\ ring_remaining_mut t r' = Ret (zlen wr - zlen d)
       | Panic => zlen wr < zlen d \/ overflows t (r_wpos r) (zlen d)
       | _ => False
       end) /\
    (forall d, zlen d <= zlen wr ->
       match (let* r1 := ring_slice_store t r (umax t) 0 d in ring_advance_mut t r1 (zlen d)) with
       | Ret r' => ~ overflows t (r_wpos r) (zlen d) /\ ring_chunk t r' = Ret (rd ++ d)
       | Panic => overflows t (r_wpos r) (zlen d)
       | _ => False
       end).
Proof. intros t cap os r Hg. exact (live_bytes t Hg cap os r). Qed.
Definition z_os : list rop := [RWriteAll [1;2;3]; RRead 2; RWrite [4;5]].
Definition z_ex : ring :=
  match ring_run (r64 false) (ring_make 4 zeros) z_os with Ret (r, _) => r | _ => ring_make 1 zeros end.
Example C40_exact_case : ring_live (r64 false) 4 z_os z_ex /\ ring_chunk (r64 false) z_ex = Ret [3;4;5] /\
  match ring_put_slice (r64 false) z_ex [6] with
  | Ret r => ring_chunk (r64 false) r = Ret [3;4;5;6]
  | _ => False
  end.
Proof.
  split; [|vm_compute; split; reflexivity]. split; [lia|]. split; [reflexivity|].
  split; [left; exists (2 ^ 62); reflexivity|]. split; [repeat constructor; cbn; unfold is_usize; cbn; lia|].
  exists zeros. eexists. vm_compute. reflexivity.
Qed.
Print Assumptions C40_bytes_exact.

(** ** C41-C43 on those infinite rings. *)
Lemma y_live : iring_live (r64 false) (2 ^ 62) y_os y_ex.
Proof.
  split; [lia|]. split; [reflexivity|]. split; [apply x_exact|]. split; [apply y_ok|].
  exists zeros. eexists. vm_compute. reflexivity.
Qed.

Theorem C41_most_recent_exact : forall t cap m os,
  good_target t -> 0 < cap -> 2 * cap < 2 ^ t_bits t -> exact_positions t cap ->
  Forall (irop_ok t cap) os -> Forall splain os ->
  match iring_run t (iring_make cap m) os with
  | Ret (r, xs) =>
    ~ (t_checks t = true /\ 2 ^ 64 <= irops_weight cap os) /\
    xs = snd (s_run cap [] os) /\
    iring_read_slice t r (umax t) = Ret (fst (s_run cap [] os)) /\
    iring_read_len t r = zlen (fst (s_run cap [] os)) /\ iring_write_len r = cap
  | Panic => t_checks t = true /\ 2 ^ 64 <= irops_weight cap os
  | _ => False
  end.
Proof. intros t cap m os Hg. exact (live_most_recent t Hg cap m os). Qed.
Example C41_exact_case :
  let os := [IWriteAll [1;2;3;4;5;6]; IRead 2; IWrite [7;8;9]; IConsume 1; IWrite [10]] in
  exact_positions (r64 false) 4 /\ Forall splain os /\
  exists r xs, iring_run (r64 false) (iring_make 4 zeros) os = Ret (r, xs) /\
    iring_read_slice (r64 false) r 9 = Ret [7;8;9;10].
Proof.
  cbv zeta. split; [left; exists (2 ^ 62); reflexivity|]. split; [repeat constructor|].
  eexists _, _. split; [vm_compute; reflexivity|vm_compute; reflexivity].
Qed.
Print Assumptions C41_most_recent_exact.

Theorem C42_oversized_exact : forall t cap os r b,
  good_target t -> iring_live t cap os r -> zlen b < 2 ^ t_bits t ->
  exists data, iring_read_slice t r (umax t) = Ret data /\
  match iring_write t r b with
  | Ret (r1, n) => ~ overflows t (i_wpos r) (Z.min (zlen b) cap) /\ n = Z.min (zlen b) cap /\
      iring_read_slice t r1 (umax t) = Ret (lastn cap (data ++ ztake cap b))
  | Panic => overflows t (i_wpos r) (Z.min (zlen b) cap)
  | _ => False
  end /\
  match iring_write_all t r b with
  | Ret r2 => ~ overflows t (i_wpos r) (Z.min (zlen b) cap) /\
      iring_read_slice t r2 (umax t) = Ret (lastn cap (data ++ b))
  | Panic => overflows t (i_wpos r) (Z.min (zlen b) cap)
  | _ => False
  end.
Proof. intros t cap os r b Hg. exact (live_oversized t Hg cap os r b). Qed.
Example C42_exact_case : iring_live (r64 false) (2 ^ 62) y_os y_ex /\
  (exists r, iring_write (r64 false) y_ex [6;7] = Ret (r, 2)) /\
  match iring_run (r64 false) (iring_make 4 zeros) [IWriteAll [1;2;3]] with
  | Ret (r, _) => match iring_write_all (r64 false) r [4;5;6;7;8;9] with
    | Ret r' => iring_read_slice (r64 false) r' 9 = Ret [6;7;8;9] | _ => False end
  | _ => False
  end.
Proof.
  split; [apply y_live|]. split; [eexists; vm_compute; reflexivity|]. vm_compute. reflexivity.
Qed.
Print Assumptions C42_oversized_exact.

(** feed for every count, after any history. *)
Theorem C43_feed_exact : forall t cap os r n,
  good_target t -> iring_live t cap os r -> is_usize t n ->
  match iring_feed t r n with
  | Ret r' => ~ (t_checks t = true /\
                 (2 ^ 64 <= iring_read_len t r + n \/ 2 ^ 64 <= i_wpos r + Z.min n cap)) /\
      iring_read_len t r' = Z.min ((iring_read_len t r + n) mod 2 ^ 64) cap
  | Panic => t_checks t = true /\
      (2 ^ 64 <= iring_read_len t r + n \/ 2 ^ 64 <= i_wpos r + Z.min n cap)
  | _ => False
  end.
Proof. intros t cap os r n Hg. exact (live_feed t Hg cap os r n). Qed.
Example C43_exact_case : iring_live (r64 false) (2 ^ 62) y_os y_ex /\ iring_read_len (r64 false) y_ex = 3 /\
  match iring_feed (r64 false) y_ex (2 ^ 64 - 1) with
  | Ret r => iring_read_len (r64 false) r = 2 | _ => False end.
Proof. split; [apply y_live|]. vm_compute. split; reflexivity. Qed.
Print Assumptions C43_feed_exact.
