(** Property theorems C90: std's provided methods on Ring and InfiniteRing. *)
From Coq Require Import Lia.
From Verif Require Import Base ErrorModel RingSpec RingModel RingExactSpec StdModel StdSpec StdClaims SeqProofs SizeProofs
  RingProofs IRingProofs RingTheorems RingClaims RingExactClaims PropertiesRing.

(** ** Reading.  [ring_left t cap r d]: the ring holds exactly [d] and has
    [cap - zlen d] bytes of space. *)
Theorem C90_ring_read : forall t cap r, good_target t -> ring_in_use t cap r ->
  exists data, ring_left t cap r data /\ zlen data <= cap /\
  (forall n, is_usize t n -> exists r',
     std_read_exact (ring_step t) ring_names r n =
       Ret (r', (ztake n data, if n <=? zlen data then None else Some (IoSimple UnexpectedEof))) /\
     ring_left t cap r' (zdrop n data)) /\
  (forall fuel sizes, (forall i, 0 < sizes i <= umax t) -> (length data < fuel)%nat -> exists r',
     std_read_to_end (ring_step t) ring_names fuel sizes r [] = Ret (r', data) /\ ring_left t cap r' []) /\
  (forall d, exists r', std_read_until (ring_step t) ring_names (umax t) r d = Ret (r', through d data) /\
     ring_left t cap r' (zdrop (zlen (through d data)) data)) /\
  (forall valid, exists r', std_read_line (ring_step t) ring_names (umax t) valid r =
       Ret (r', if valid (through 10 data) then (through 10 data, None) else ([], Some InvalidData)) /\
     ring_left t cap r' (zdrop (zlen (through 10 data)) data)) /\
  (forall fuel d, (length data < fuel)%nat -> exists r' ps,
     std_split (ring_step t) ring_names (umax t) fuel r d [] = Ret (r', ps) /\ pieces d data ps /\ ring_left t cap r' []) /\
  (forall lens, Forall (is_usize t) lens -> exists r',
     let n := match find (fun n => 0 <? n) lens with Some n => n | None => 0 end in
     std_read_vectored (ring_step t) ring_names r lens = Ret (r', OBytes (ztake n data)) /\
     ring_left t cap r' (zdrop n data)) /\
  (forall n, is_usize t n ->
     (zlen data < n -> ring_copy_to_slice t r n = Panic) /\
     (n <= zlen data -> exists r', ring_copy_to_slice t r n = Ret (r', ztake n data) /\ ring_left t cap r' (zdrop n data))).
Proof. intros t cap r Hg. exact (ring_readers t Hg cap r). Qed.
(** The ring holds 4, 5, 6 across its end. *)
Example C90_ring_read_case : ring_in_use (r64 true) 5 r_ex /\
  (exists r, std_read_exact (ring_step (r64 true)) ring_names r_ex 2 = Ret (r, ([4;5], None))) /\
  (exists r, std_read_exact (ring_step (r64 true)) ring_names r_ex 4 = Ret (r, ([4;5;6], Some (IoSimple UnexpectedEof)))) /\
  (exists r, std_read_to_end (ring_step (r64 true)) ring_names 5 (fun _ => 2) r_ex [] = Ret (r, [4;5;6])) /\
  (exists r, std_split (ring_step (r64 true)) ring_names (umax (r64 true)) 4 r_ex 5 [] = Ret (r, [[4];[6]])) /\
  (exists r, std_read_line (ring_step (r64 true)) ring_names (umax (r64 true)) (fun _ => false) r_ex =
     Ret (r, ([], Some InvalidData)) /\ ring_read_len (r64 true) r = Ret 0) /\
  (exists r, std_read_vectored (ring_step (r64 true)) ring_names r_ex [0;2;9] = Ret (r, OBytes [4;5])) /\
  ring_copy_to_slice (r64 true) r_ex 4 = Panic /\
  (exists r, ring_copy_to_slice (r64 true) r_ex 3 = Ret (r, [4;5;6])).
Proof.
  split; [exists r_os; left; exact r_ex_reached|].
  do 4 (split; [eexists; vm_compute; reflexivity|]).
  split; [eexists; split; [vm_compute; reflexivity|vm_compute; reflexivity]|].
  split; [eexists; vm_compute; reflexivity|]. split; [vm_compute; reflexivity|eexists; vm_compute; reflexivity].
Qed.
Print Assumptions C90_ring_read.

Theorem C90_infinite_read : forall t cap r, good_target t -> iring_in_use t cap r ->
  exists data, iring_left t r data /\ zlen data <= cap /\
  (forall n, is_usize t n -> exists r',
     std_read_exact (iring_step t) iring_names r n =
       Ret (r', (ztake n data, if n <=? zlen data then None else Some (IoSimple UnexpectedEof))) /\
     iring_left t r' (zdrop n data)) /\
  (forall fuel sizes, (forall i, 0 < sizes i <= umax t) -> (length data < fuel)%nat -> exists r',
     std_read_to_end (iring_step t) iring_names fuel sizes r [] = Ret (r', data) /\ iring_left t r' []) /\
  (forall d, exists r', std_read_until (iring_step t) iring_names (umax t) r d = Ret (r', through d data) /\
     iring_left t r' (zdrop (zlen (through d data)) data)) /\
  (forall valid, exists r', std_read_line (iring_step t) iring_names (umax t) valid r =
       Ret (r', if valid (through 10 data) then (through 10 data, None) else ([], Some InvalidData)) /\
     iring_left t r' (zdrop (zlen (through 10 data)) data)) /\
  (forall fuel d, (length data < fuel)%nat -> exists r' ps,
     std_split (iring_step t) iring_names (umax t) fuel r d [] = Ret (r', ps) /\ pieces d data ps /\ iring_left t r' []) /\
  (forall lens, Forall (is_usize t) lens -> exists r',
     let n := match find (fun n => 0 <? n) lens with Some n => n | None => 0 end in
     std_read_vectored (iring_step t) iring_names r lens = Ret (r', OBytes (ztake n data)) /\
     iring_left t r' (zdrop n data)).
Proof. intros t cap r Hg. exact (iring_readers t Hg cap r). Qed.
Example C90_infinite_read_case : iring_in_use (r64 true) 5 i_ex /\
  (exists r, std_read_exact (iring_step (r64 true)) iring_names i_ex 7 = Ret (r, ([6;7;8;9;10], Some (IoSimple UnexpectedEof)))) /\
  (exists r, std_read_until (iring_step (r64 true)) iring_names (umax (r64 true)) i_ex 8 = Ret (r, [6;7;8])) /\
  (exists r, std_read_line (iring_step (r64 true)) iring_names (umax (r64 true)) (fun _ => true) i_ex = Ret (r, ([6;7;8;9;10], None))) /\
  (exists r, std_split (iring_step (r64 true)) iring_names (umax (r64 true)) 6 i_ex 6 [] = Ret (r, [[];[7;8;9;10]])).
Proof.
  split; [exists i_os; left; exact i_ex_reached|].
  repeat (match goal with |- _ /\ _ => split end); eexists; vm_compute; reflexivity.
Qed.
Print Assumptions C90_infinite_read.

(** ** Writing.  [ring_with_room t cap n r]: the stream position has room for
    [n] more bytes. *)
Theorem C90_ring_write : forall t cap n r, good_target t -> ring_with_room t cap n r ->
  exists data, ring_left t cap r data /\ let free := cap - zlen data in
  (forall frags, Z.min (zlen (concat frags)) free <= n -> exists r',
     std_write_fmt (ring_step t) ring_names r frags =
       Ret (r', if zlen (concat frags) <=? free then None else Some (IoSimple WriteZero)) /\
     ring_left t cap r' (data ++ ztake free (concat frags))) /\
  (forall bufs, let b := match find (fun b => 0 <? zlen b) bufs with Some b => b | None => [] end in
     Z.min (zlen b) free <= n -> exists r',
     std_write_vectored (ring_step t) ring_names r bufs = Ret (r', OCount (Z.min (zlen b) free)) /\
     ring_left t cap r' (data ++ ztake free b)).
Proof. intros t cap n r Hg. exact (ring_writers t Hg cap n r). Qed.
Example C90_ring_write_case : ring_with_room (r64 true) 5 3 r_ex /\
  (exists r, std_write_fmt (ring_step (r64 true)) ring_names r_ex [[7];[];[8;9];[10]] = Ret (r, Some (IoSimple WriteZero)) /\
     ring_read_slice (r64 true) r 9 = Ret [4;5;6;7;8]) /\
  (exists r, std_write_fmt (ring_step (r64 true)) ring_names r_ex [[7];[8];[]] = Ret (r, None) /\
     ring_read_slice (r64 true) r 9 = Ret [4;5;6;7;8]) /\
  (exists r, std_write_vectored (ring_step (r64 true)) ring_names r_ex [[];[7];[8]] = Ret (r, OCount 1) /\
     ring_read_slice (r64 true) r 9 = Ret [4;5;6;7]).
Proof.
  split; [exists r_os; left; split; [exact r_ex_reached|]|].
  - split; left; vm_compute; reflexivity.
  - repeat (match goal with |- _ /\ _ => split end); (eexists; split; [vm_compute; reflexivity|vm_compute; reflexivity]).
Qed.
Print Assumptions C90_ring_write.

Theorem C90_infinite_write : forall t cap n r, good_target t -> iring_with_room t cap n r ->
  exists data, iring_left t r data /\
  (forall frags, Forall (fun b => zlen b < 2 ^ t_bits t) frags -> zlen (concat frags) <= n -> exists r',
     std_write_fmt (iring_step t) iring_names r frags = Ret (r', None) /\
     iring_left t r' (lastn cap (data ++ concat frags))) /\
  (forall bufs, let b := match find (fun b => 0 <? zlen b) bufs with Some b => b | None => [] end in
     Z.min (zlen b) cap <= n -> exists r',
     std_write_vectored (iring_step t) iring_names r bufs = Ret (r', OCount (Z.min (zlen b) cap)) /\
     iring_left t r' (lastn cap (data ++ ztake cap b))).
Proof. intros t cap n r Hg. exact (iring_writers t Hg cap n r). Qed.
Example C90_infinite_write_case : iring_with_room (r64 true) 5 9 i_ex /\
  (exists r, std_write_fmt (iring_step (r64 true)) iring_names i_ex [[11];[12;13]] = Ret (r, None) /\
     iring_read_slice (r64 true) r 9 = Ret [9;10;11;12;13]) /\
  (exists r, std_write_vectored (iring_step (r64 true)) iring_names i_ex [[];[11;12];[13]] = Ret (r, OCount 2) /\
     iring_read_slice (r64 true) r 9 = Ret [8;9;10;11;12]).
Proof.
  split; [exists i_os; left; split; [exact i_ex_reached|]|].
  - split; left; vm_compute; reflexivity.
  - repeat (match goal with |- _ /\ _ => split end); (eexists; split; [vm_compute; reflexivity|vm_compute; reflexivity]).
Qed.
Print Assumptions C90_infinite_write.

(** ** Programs that choose each call by the answers before it. *)
Theorem C90_ring_programs : forall t cap A m (c : client rop A),
  good_target t -> 0 < cap -> 2 * cap < 2 ^ t_bits t -> exact_positions t cap -> asks (rop_ok t) c ->
  exists res, serves (t_checks t) 0 {| q_data := []; q_free := view m 0 cap |} c res /\
    match res with
    | Some (q, x) => exists r, client_run (ring_step t) (ring_make cap m) c = Ret (r, x) /\ ring_shows t cap r q
    | None => client_run (ring_step t) (ring_make cap m) c = Panic
    end.
Proof. intros t cap A m c Hg. exact (ring_clients t Hg cap m c). Qed.
(** Writes, and reads back one byte less than was taken. *)
Definition c_ex : client rop (bytes * Z) :=
  Call (RWrite [1;2;3;4;5;6]) (fun x => match x with
    | OCount n => Call (RRead (Z.max 0 (Z.min n 8 - 1))) (fun y => Done (bytes_of y, n))
    | _ => Done ([], 0) end).
Example C90_ring_programs_case : exact_positions (r64 true) 4 /\ asks (rop_ok (r64 true)) c_ex /\
  exists r, client_run (ring_step (r64 true)) (ring_make 4 zeros) c_ex = Ret (r, ([1;2;3], 4)) /\
    ring_read_slice (r64 true) r 9 = Ret [4].
Proof.
  split; [left; exists (2 ^ 62); reflexivity|]. split.
  - cbn [asks c_ex]. split; [cbn; vm_compute; reflexivity|]. intros []; cbn [asks]; auto.
    split; [|auto]. cbn. unfold is_usize. cbn [r64 t_bits]. lia.
  - eexists. split; [vm_compute; reflexivity|vm_compute; reflexivity].
Qed.
Print Assumptions C90_ring_programs.

Theorem C90_infinite_programs : forall t cap A m (c : client irop A),
  good_target t -> 0 < cap -> 2 * cap < 2 ^ t_bits t -> exact_positions t cap -> asks (irop_ok t cap) c ->
  exists res, lserves (t_checks t) 0 {| lq_tape := view m 0 cap; lq_len := 0 |} c res /\
    match res with
    | Some (q, x) => exists r, client_run (iring_step t) (iring_make cap m) c = Ret (r, x) /\ iring_shows t cap r q
    | None => client_run (iring_step t) (iring_make cap m) c = Panic
    end.
Proof. intros t cap A m c Hg. exact (iring_clients t Hg cap m c). Qed.
Definition ic_ex : client irop bytes :=
  Call (IWriteAll [1;2;3;4;5;6]) (fun _ => Call (IRead 1) (fun x =>
    match x with OBytes [3] => Call (IRead 2) (fun y => Done (bytes_of y)) | _ => Done [] end)).
Example C90_infinite_programs_case : asks (irop_ok (r64 true) 4) ic_ex /\
  exists r, client_run (iring_step (r64 true)) (iring_make 4 zeros) ic_ex = Ret (r, [4;5]).
Proof.
  split.
  - cbn [asks ic_ex]. split; [vm_compute; reflexivity|]. intros _. split; [vm_compute; split; [discriminate|reflexivity]|].
    intros x. destruct x as [| |b|]; cbn [asks]; auto. destruct b as [|z [|]]; cbn [asks]; auto.
    + destruct (Z.eq_dec z 3) as [->|N]; [cbn [asks]; split; [vm_compute; split; [discriminate|reflexivity]|auto]|].
      destruct z as [|[[| |]|[| |]|]|]; cbn [asks]; auto; congruence.
    + destruct z as [|[[| |]|[| |]|]|]; cbn [asks]; auto.
  - eexists. vm_compute. reflexivity.
Qed.
Print Assumptions C90_infinite_programs.
