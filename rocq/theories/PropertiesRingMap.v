(** Property theorems C27-C30, C56: ring allocation on POSIX systems. *)
From Coq Require Import Lia.
From Verif Require Import Base Spec ErrorModel RingModel OsModel MapModel MapSpec RingMapModel RingMapSpec
  OsProofs MirrorProofs RingMapClaims PropertiesSize PropertiesMap.

Lemma t64_good c : good_target (t64 c).
Proof. exact (proj1 (t64_posix c)). Qed.

(** A kernel that grants everything: descriptor 3, address 0x10000. *)
Definition ring_world (rest : list answer) : world := ex_world (grants 3 0 65536 0 0 ++ rest).
Definition epoch : nat -> Z := fun i => 1700000000123456789 + 1000 * Z.of_nat i.

(** ** C27 *)
Theorem C27_mirrored : forall t plat clock len w pg w',
  good_target t -> wf w -> is_usize t len -> map_ring t plat clock len w = (Ret pg, w') ->
  0 < len /\ mirrored t w' pg len (fun _ => 0).
Proof.
  intros t plat clock len w pg w' Ht Hw Hl H. apply map_ring_spec in H as [_ A]; [|exact Ht|exact Hw|exact Hl].
  split; [destruct (al_n _ _ _ _ _ _ A) as (n & Hn & -> & _); pose proof (SizeProofs.pow2_pos _ (proj1 (proj2 Ht))); nia|].
  destruct (allocated_ringed t plat w w' pg len Hw A) as (n & -> & R). exact (ringed_mirrored t Ht w' pg n _ _ R).
Qed.
(** A three-page ring (not a power of two); a store into the second half
    shows in the first one. *)
Example C27_case :
  let '(r, w') := map_ring (t64 true) Anonymous epoch 12288 (ring_world []) in
  r = Ret 65536 /\
  let '(s, w'') := put_all (t64 true) 65536 [(12288 + 5000, 77); (9000, 78)] w' in
  s = Ret tt /\ load (E:=error) (t64 true) w'' (65536 + 5000) = Ret 77 /\
  load (E:=error) (t64 true) w'' (65536 + 12288 + 9000) = Ret 78 /\
  load (E:=error) (t64 true) w'' (65536 + 12288 + 5001) = Ret 0 /\
  load (E:=error) (t64 true) w'' (65536 + 2 * 12288) = Fault.
Proof. vm_compute. auto 10. Qed.
Print Assumptions C27_mirrored.

(** No other address changes its content, and none becomes readable. *)
Theorem C27_elsewhere : forall t plat clock len w pg w' a,
  good_target t -> wf w -> is_usize t len -> map_ring t plat clock len w = (Ret pg, w') ->
  ~ (pg <= a < pg + 2 * len) -> load (E:=error) t w' a = load t w a.
Proof.
  intros t plat clock len w pg w' a Ht Hw Hl H. apply map_ring_spec in H as [_ A]; [|exact Ht|exact Hw|exact Hl].
  exact (allocated_others t Ht plat w w' pg len a Hw A).
Qed.
Example C27_case2 : fst (map_ring (t64 true) Anonymous epoch 4096 (ring_world [])) = Ret 65536 /\
  ~ (65536 <= 65535 < 65536 + 2 * 4096).
Proof. split; [vm_compute; reflexivity|lia]. Qed.
Print Assumptions C27_elsewhere.

(** The kernel memory is the memory RingModel.v computes with: storing the
    bytes [d] from offset [off] on is [vstore], reading [k] bytes is the slice
    of [mirror]. *)
Theorem C27_ring_memory : forall t w pg n m off d,
  mirrored t w pg n m -> 0 <= off -> off + zlen d <= 2 * n ->
  let '(r, w') := put_all t pg (from_offset off d) w in
  r = Ret tt /\ mirrored t w' pg n (vstore n m off d) /\
  forall i k, 0 <= i -> 0 <= k -> i + k <= 2 * n ->
    load_all t w' (pg + i) (Z.to_nat k) = Ret (view (mirror (vstore n m off d) n) i k).
Proof.
  intros t w pg n m off d M H0 H. pose proof (ring_memory t w pg n m off d M H0 H) as S.
  destruct (put_all t pg (from_offset off d) w) as [r w']. destruct S as [-> M'].
  split; [reflexivity|]. split; [exact M'|]. intros i k. exact (ring_slice t w' pg n _ i k M').
Qed.
Example C27_case3 :
  let '(r, w') := map_ring (t64 true) Anonymous epoch 4096 (ring_world []) in
  mirrored (t64 true) w' 65536 4096 (fun _ => 0) /\
  (* nine bytes across the end of the first half *)
  let '(s, w'') := put_all (t64 true) 65536 (from_offset 4090 [1; 2; 3; 4; 5; 6; 7; 8; 9]) w' in
  s = Ret tt /\ load_all (t64 true) w'' 65536 4 = Ret [7; 8; 9; 0].
Proof.
  destruct (map_ring (t64 true) Anonymous epoch 4096 (ring_world [])) as [r w'] eqn:E.
  assert (Er : r = Ret 65536) by (change r with (fst (r, w')); rewrite <- E; vm_compute; reflexivity). subst r. split.
  - refine (proj2 (C27_mirrored _ _ _ _ _ _ _ (t64_good true) (ex_wf _) _ E)). vm_compute. split; congruence.
  - assert (Ew : w' = snd (map_ring (t64 true) Anonymous epoch 4096 (ring_world []))) by (rewrite E; reflexivity).
    rewrite Ew. vm_compute. auto 10.
Qed.
Print Assumptions C27_ring_memory.

(** ** C28 *)
Theorem C28_success : forall t plat clock len w pg w',
  good_target t -> wf w -> is_usize t len -> map_ring t plat clock len w = (Ret pg, w') ->
  pg mod t_page t = 0 /\ (forall fd, w_fd w' fd = w_fd w fd) /\ (forall o, o < w_next w -> w_obj w' o = w_obj w o) /\
  ((forall path, w_fs w' path = w_fs w path) \/ (plat = Named /\ refused_some w w')) /\
  forall p, if (pg <=? t_page t * p) && (t_page t * p <? pg + 2 * len)
            then w_vm w p = None /\ w_vm w' p <> None else w_vm w' p = w_vm w p.
Proof.
  intros t plat clock len w pg w' Ht Hw Hl H. apply map_ring_spec in H as [_ A]; [|exact Ht|exact Hw|exact Hl].
  destruct A as [(n & Hn & -> & Fr & V) A1 A2 A3 A4 A5 A6 A7 A8 A9].
  split; [exact A1|]. split; [exact A6|]. split; [exact A7|]. split; [exact A9|].
  intros p. pose proof (page_in t Ht pg n (t_page t * p) Hn A1) as I.
  pose proof (SizeProofs.pow2_pos _ (proj1 (proj2 Ht))) as HP.
  rewrite (Z.mul_comm (t_page t) p), Z.div_mul, (Z.mul_comm p) in I by lia.
  destruct ((pg <=? t_page t * p) && (t_page t * p <? pg + 2 * (t_page t * n))) eqn:E.
  - apply andb_prop in E as [E1 E2]. apply Z.leb_le in E1. apply Z.ltb_lt in E2.
    assert (J : pg / t_page t <= p < pg / t_page t + 2 * n) by (apply I; lia). split; [apply Fr, J|].
    rewrite V. unfold two_views. destruct (in_pages_cases (pg / t_page t) n p) as [[-> _]|[-> K]]; [discriminate|].
    rewrite in_pages_yes by lia. discriminate.
  - assert (J : ~ (pg / t_page t <= p < pg / t_page t + 2 * n)).
    { intros J. apply I in J. apply andb_false_iff in E. rewrite Z.leb_gt, Z.ltb_ge in E. lia. }
    rewrite V. unfold two_views. rewrite !in_pages_no by lia. reflexivity.
Qed.
Example C28_case :
  let '(r, w') := map_ring (t64 true) Anonymous epoch 12288 (ring_world []) in
  r = Ret 65536 /\ w_fd w' 3 = None /\
  map (fun p => match w_vm w' p with None => false | Some _ => true end) [15; 16; 17; 18; 19; 20; 21; 22] =
    [false; true; true; true; true; true; true; false].
Proof. vm_compute. auto 10. Qed.
Print Assumptions C28_success.

(** A failed allocation of any size against any kernel: the descriptors and
    all contents are as before; so is the address space, unless the kernel
    refused the cleanup after a failed half.  A name is left behind only if
    the kernel refused a call on a platform with named objects.  The only
    panic is a clock before 1970. *)
Theorem C28_failure : forall t plat clock len w r w',
  good_target t -> wf w -> is_usize t len -> map_ring t plat clock len w = (r, w') ->
  match r with
  | Ret _ => True
  | Err e => stage_error e /\ (forall fd, w_fd w' fd = w_fd w fd) /\ (forall o, o < w_next w -> w_obj w' o = w_obj w o) /\
      ((forall path, w_fs w' path = w_fs w path) \/ (plat = Named /\ refused_some w w')) /\
      ((forall p, w_vm w' p = w_vm w p) \/
       ((error_operation e = RingPrimary \/ error_operation e = RingSecondary) /\ refused_last w w' /\ left_mapped t w w' len))
  | Panic => quiet w w' /\ plat = Named /\ exists k, clock k < 0
  | _ => False
  end.
Proof.
  intros t plat clock len w r w' Ht Hw Hl H. apply map_ring_spec in H as [_ A]; [|exact Ht|exact Hw|exact Hl].
  destruct r as [pg|e| | |]; try contradiction; [exact I| |exact A].
  destruct A as (A1 & A2 & A3 & A4 & A5). auto 10.
Qed.
(** The kernel refuses the second half and grants the cleanup; it refuses both;
    a length of more than half the address space; one that is no multiple of
    the page size. *)
Example C28_case2 :
  let '(r, w') := map_ring (t64 true) Anonymous epoch 8192
                    (ex_world [Grant 3; Grant 0; Grant 65536; Grant 0; Refuse ENOMEM; Grant 0; Grant 0]) in
  let '(r2, w2) := map_ring (t64 true) Anonymous epoch 8192
                    (ex_world [Grant 3; Grant 0; Grant 65536; Grant 0; Refuse ENOMEM; Refuse EINVAL; Grant 0]) in
  r = Err (last_os_error RingSecondary ENOMEM) /\ w_fd w' 3 = None /\ w_vm w' 16 = None /\ w_vm w' 19 = None /\
  r2 = Err (last_os_error RingSecondary ENOMEM) /\ w_fd w2 3 = None /\ w_vm w2 16 <> None /\
  fst (map_ring (t64 true) Anonymous epoch (2 ^ 63) (ring_world [])) = Err (last_os_error MemoryFd EINVAL) /\
  fst (map_ring (t64 true) Anonymous epoch 5000 (ring_world [])) = Err (last_os_error RingSecondary EINVAL).
Proof. vm_compute. intuition discriminate. Qed.
Print Assumptions C28_failure.

(** Refusing the [k]-th of the five calls makes the allocation fail with the
    stage of that call and the kernel's error code, and restores everything;
    granting all five makes it succeed at the address the kernel chose. *)
Theorem C28_stage : forall t clock len fd pg x1 x3 x4 w,
  good_target t -> wf w -> 0 < len < 2 ^ (t_bits t - 1) -> (t_page t | len) ->
  0 <= fd -> w_fd w fd = None ->
  t_page t <= pg /\ pg mod t_page t = 0 /\ pg + 2 * len <= 2 ^ t_bits t - t_page t ->
  (forall p, t_page t * p < pg + 2 * len -> pg < t_page t * p + t_page t -> w_vm w p = None) ->
  (forall k c y z q, (k < 5)%nat ->
     w_orc w = firstn k (grants fd x1 pg x3 x4) ++ Refuse c :: Grant y :: z :: q ->
     let '(r, w') := map_ring t Anonymous clock len w in
     r = Err (last_os_error (nth_stage k) c) /\ untouched w w' /\ forall path, w_fs w' path = w_fs w path) /\
  (forall q, w_orc w = grants fd x1 pg x3 x4 ++ q ->
     fst (map_ring t Anonymous clock len w) = Ret pg).
Proof.
  intros t clock len fd pg x1 x3 x4 w Ht Hw [Hl0 Hl2] Hl1 Hfd0 Hfd Hpg Hfree. split.
  - intros k c y z q Hk Hq. exact (stage_restored t Ht clock len fd pg x1 x3 x4 w Hw Hl0 Hl1 Hl2 Hfd0 Hfd Hpg Hfree k c y z q Hk Hq).
  - intros q Hq. destruct (stages t Ht clock len fd pg x1 x3 x4 w Hl0 Hl1 Hl2 Hfd0 Hfd Hpg Hfree 5 (le_n 5) q Hq) as [S _].
    destruct (S eq_refl) as (w' & E & _). rewrite E. reflexivity.
Qed.
Example C28_case3 : (4096 | 12288) /\ 65536 mod 4096 = 0 /\
  map (fun k => fst (map_ring (t64 true) Anonymous epoch 12288
         (ex_world (firstn k (grants 3 0 65536 0 0) ++ [Refuse 23; Grant 0; Grant 0])))) [0; 1; 2; 3; 4]%nat =
  [Err (last_os_error MemoryFd 23); Err (last_os_error MemoryFd 23); Err (last_os_error RingAllocate 23);
   Err (last_os_error RingPrimary 23); Err (last_os_error RingSecondary 23)].
Proof. split; [exists 3; reflexivity|]. vm_compute. auto 10. Qed.
Print Assumptions C28_stage.

(** ** C29.  Whatever is stored into the ring in between; if the kernel refuses
    to unmap, the drop reports nothing and the ring stays mapped. *)
Theorem C29_create_drop : forall t plat clock hint l w a w1,
  good_target t -> wf w -> is_usize t hint -> ring_new t plat clock hint w = (Ret a, w1) ->
  Forall (fun x => 0 <= fst x < 2 * ra_len a) l ->
  let '(r2, w2) := put_all t (ra_ptr a) l w1 in
  let '(r3, w3) := ring_drop t a w2 in
  r2 = Ret tt /\ r3 = Ret tt /\ (forall fd, w_fd w3 fd = w_fd w fd) /\
  (forall o, o < w_next w -> w_obj w3 o = w_obj w o) /\
  ((forall p, w_vm w3 p = w_vm w p) \/ (refused_last w2 w3 /\ w_vm w3 = w_vm w1)).
Proof. intros t plat clock hint l w a w1 Ht. exact (life_cycle t Ht plat clock hint l w a w1). Qed.
Example C29_case :
  let '(r1, w1) := ring_new (t64 true) Anonymous epoch 9000 (ring_world [Grant 0]) in
  r1 = Ret {| ra_ptr := 65536; ra_len := 12288 |} /\ w_vm w1 16 <> None /\ w_vm w1 21 <> None /\
  let '(r3, w3) := ring_drop (t64 true) {| ra_ptr := 65536; ra_len := 12288 |} w1 in
  r3 = Ret tt /\ map (w_vm w3) [16; 17; 18; 19; 20; 21] = [None; None; None; None; None; None].
Proof. vm_compute. intuition discriminate. Qed.
Print Assumptions C29_create_drop.

(** ** C30.  For every hint, whether or not overflow is checked. *)
Theorem C30_capacity : forall t plat clock hint w a w',
  good_target t -> wf w -> is_usize t hint -> ring_new t plat clock hint w = (Ret a, w') ->
  0 < ra_len a /\ is_ceil (t_alloc t) hint (ra_len a).
Proof.
  intros t plat clock hint w a w' Ht Hw Hh H. apply ring_new_spec in H as (_ & C & A); [|exact Ht|exact Hw|exact Hh].
  split; [|exact C]. destruct (al_n _ _ _ _ _ _ A) as (n & Hn & -> & _).
  pose proof (SizeProofs.pow2_pos _ (proj1 (proj2 Ht))). nia.
Qed.
(** The hint 0 and, with wrapping arithmetic, hints next to 2^64 are errors,
    not zero-sized rings. *)
Example C30_case :
  fst (ring_new (t64 true) Anonymous epoch 12288 (ring_world [])) = Ret {| ra_ptr := 65536; ra_len := 12288 |} /\
  fst (ring_new (t64 true) Anonymous epoch 1 (ring_world [])) = Ret {| ra_ptr := 65536; ra_len := 4096 |} /\
  fst (ring_new (t64 true) Anonymous epoch 0 (ring_world [])) = Err (last_os_error RingAllocate EINVAL) /\
  fst (ring_new (t64 false) Anonymous epoch (2 ^ 64 - 1) (ring_world [])) = Err (last_os_error RingAllocate EINVAL) /\
  fst (ring_new (t64 true) Anonymous epoch (2 ^ 64 - 1) (ring_world [])) = Panic.
Proof. vm_compute. auto 10. Qed.
Print Assumptions C30_capacity.

(** Every failure of [Ring::new] and [InfiniteRing::new] (C28 through the
    public constructors). *)
Theorem C30_failure : forall t plat clock hint w r w',
  good_target t -> wf w -> is_usize t hint -> ring_new t plat clock hint w = (r, w') ->
  match r with
  | Ret _ => True
  | Err e => stage_error e /\ (forall fd, w_fd w' fd = w_fd w fd) /\ (forall o, o < w_next w -> w_obj w' o = w_obj w o) /\
      ((forall p, w_vm w' p = w_vm w p) \/ (refused_last w w' /\ exists len, left_mapped t w w' len))
  | Panic => quiet w w' /\ (t_checks t = true \/ (plat = Named /\ exists k, clock k < 0))
  | _ => False
  end.
Proof.
  intros t plat clock hint w r w' Ht Hw Hh H. apply ring_new_spec in H as (_ & A); [|exact Ht|exact Hw|exact Hh].
  destruct r as [a|e| | |]; try contradiction; [exact I| |exact A]. destruct A as (A1 & _ & A3 & A4 & A5). auto.
Qed.
Print Assumptions C30_failure.

(** ** C56.  In every round, whatever the clock said in the rounds before. *)
Theorem C56_name_partial : forall cs c, Forall (fun c => 0 <= c) cs -> 0 <= c ->
  exists name, (let* pb := buffer cs shm_template in shm_name c pb) = Ret (name, name ++ [0]) /\
    is_name c name /\ length name = 13%nat /\ ~ In 0 name.
Proof. exact name_round. Qed.
(** "/vmap-0000042" *)
Example C56_case :
  (let* pb := buffer [1700000000123456789; 12] shm_template in shm_name 5000000042 pb) =
  Ret ([47; 118; 109; 97; 112; 45; 48; 48; 48; 48; 48; 52; 50],
       [47; 118; 109; 97; 112; 45; 48; 48; 48; 48; 48; 52; 50; 0]).
Proof. vm_compute. reflexivity. Qed.
Print Assumptions C56_name_partial.

(** A clock set before 1970 panics. *)
Theorem C56_epoch_refuted : forall pb c, c < 0 -> shm_name c pb = Panic.
Proof. intros pb c H. unfold shm_name. rewrite (proj2 (Z.ltb_lt c 0) H). reflexivity. Qed.
Example C56_case2 : -1 < 0 /\ fst (map_ring (t64 true) Named (fun _ => -1) 4096 (ring_world [])) = Panic.
Proof. split; [lia|vm_compute; reflexivity]. Qed.
Print Assumptions C56_epoch_refuted.

(** Any number of collisions, then a free name: the descriptor of that round,
    an empty object, and the name is gone again. *)
Theorem C56_retry : forall t clock w cols fd u q,
  (forall i, 0 <= clock i) ->
  w_orc w = cols ++ Grant fd :: Grant u :: q ->
  (forall i x, nth_error cols i = Some x -> collides clock w i x) ->
  0 <= fd -> w_fd w fd = None ->
  (forall name, is_name (clock (length cols)) name -> w_fs w (shm_path name) = None) ->
  exists w', memfd_open t Named clock w = (Ret fd, w') /\ w_orc w' = q /\
    w_fd w' = put (w_fd w) fd (Some {| fd_obj := w_next w; fd_w := true |}) /\
    w_obj w' = put (w_obj w) (w_next w) {| o_size := 0; o_data := fun _ => 0; o_disk := fun _ => 0 |} /\
    w_vm w' = w_vm w /\ forall path, w_fs w' path = w_fs w path.
Proof.
  intros t clock w cols fd u q Hc Hq Hcol H0 Hf Hn.
  destruct (retry_free t clock w cols fd u q Hc Hq Hcol H0 Hf Hn) as (w' & E & [] & F & Q). exists w'. auto 10.
Qed.
(** The first name is taken, the second one refused as existing, the third
    one is free. *)
Definition taken_world (q : list answer) : world :=
  set_fs (ex_world q) (fun p => if p =? shm_path [47; 118; 109; 97; 112; 45; 51; 52; 53; 54; 55; 56; 57] then Some 1 else None).
Example C56_case3 :
  is_name (epoch 0) [47; 118; 109; 97; 112; 45; 51; 52; 53; 54; 55; 56; 57] /\
  fst (map_ring (t64 true) Named epoch 4096
         (taken_world [Grant 3; Refuse EEXIST; Grant 3; Grant 0; Grant 0; Grant 65536; Grant 0; Grant 0])) = Ret 65536 /\
  fst (map_ring (t64 true) Named epoch 4096 (taken_world [Grant 3; Refuse EACCES])) = Err (last_os_error MemoryFd EACCES).
Proof.
  split.
  - exists [51; 52; 53; 54; 55; 56; 57]. split; [reflexivity|]. split; [reflexivity|]. split; [repeat constructor; lia|vm_compute; reflexivity].
  - vm_compute. auto 10.
Qed.
Print Assumptions C56_retry.

(** Any number of collisions, then another error: that error, nothing left
    behind. *)
Theorem C56_error : forall t clock w cols c q,
  (forall i, 0 <= clock i) -> c <> EEXIST ->
  w_orc w = cols ++ Refuse c :: q ->
  (forall i x, nth_error cols i = Some x -> collides clock w i x) ->
  exists w', memfd_open t Named clock w = (Err (last_os_error MemoryFd c), w') /\ quiet w w' /\ w_orc w' = q.
Proof. exact retry_stops. Qed.
Example C56_case4 : EACCES <> EEXIST /\ collides epoch (taken_world [Grant 3; Refuse EACCES]) 0 (Grant 3).
Proof.
  split; [discriminate|]. right. exists 3. split; [reflexivity|]. split; [lia|]. split; [reflexivity|].
  intros name N. rewrite (is_name_unique _ _ _ N (proj1 C56_case3)). vm_compute. discriminate.
Qed.
Print Assumptions C56_error.
