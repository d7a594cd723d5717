(** Property theorems C31: ring allocation on macOS and iOS.  That no kernel
    port stays allocated is false; what is left of the property is proved for
    the lengths [Ring::new] asks for, multiples of the page size below half the
    address space. *)
From Coq Require Import Lia.
From Verif Require Import Base Spec ErrorModel OsModel MapModel MapSpec RingMapModel RingMapSpec MirrorProofs
  MachModel MachSpec MachProofs MachClaims PropertiesSize PropertiesMap PropertiesRingMap.

(** A task without port rights; the kernel reserves at 0x10000 and names the
    first port 2563. *)
Definition ex_task (q : list answer) : mach := {| mc_w := ex_world q; mc_ports := fun _ => None |}.
Definition mach_world (rest : list answer) : mach := ex_task (mach_grants 65536 0 2563 0 ++ rest).

Theorem C31_success_partial : forall t len s pg s',
  good_target t -> wf (mc_w s) -> (t_page t | len) -> 0 <= len < 2 ^ (t_bits t - 1) ->
  mach_map_ring t len s = (Ret pg, s') ->
  0 < len /\ pg mod t_page t = 0 /\ mirrored t (mc_w s') pg len (fun _ => 0) /\
  (forall p, if (pg <=? t_page t * p) && (t_page t * p <? pg + 2 * len)
             then w_vm (mc_w s) p = None /\ w_vm (mc_w s') p <> None else w_vm (mc_w s') p = w_vm (mc_w s) p) /\
  (forall o, o < w_next (mc_w s) -> w_obj (mc_w s') o = w_obj (mc_w s) o).
Proof.
  intros t len s pg s' Ht Hw Hd Hl H. destruct (page_multiple t len Hd) as (n & ->).
  apply mach_map_ring_spec in H as (_ & (_ & _ & _ & K) & A); [|exact Ht|exact Hl].
  split; [exact (proj1 (mach_bound t Ht _ _ _ _ A))|]. split; [exact (ma_align _ _ _ _ _ A)|].
  split; [exact (ringed_mirrored t Ht _ _ _ _ _ (mach_ringed t _ _ _ _ Hw A))|].
  split; [intros p; exact (mach_pages t Ht _ _ _ _ p A)|exact K].
Qed.
Example C31_case : (4096 | 12288) /\
  let '(r, s') := mach_map_ring (t64 true) 12288 (mach_world []) in
  r = Ret 65536 /\
  let '(x, w'') := put_all (t64 true) 65536 [(12288 + 5000, 77); (9000, 78)] (mc_w s') in
  x = Ret tt /\ load (E:=error) (t64 true) w'' (65536 + 5000) = Ret 77 /\
  load (E:=error) (t64 true) w'' (65536 + 12288 + 9000) = Ret 78 /\
  load (E:=error) (t64 true) w'' (65536 + 12288 + 5001) = Ret 0 /\
  load (E:=error) (t64 true) w'' (65536 + 2 * 12288) = Fault.
Proof. split; [exists 3; reflexivity|]. vm_compute. auto 10. Qed.
Print Assumptions C31_success_partial.

(** A failed allocation against any kernel.  [k] is the failing call.  The port
    made by the third call is left behind when the fourth one fails. *)
Theorem C31_failure_partial : forall t len s r s',
  good_target t -> (t_page t | len) -> 0 <= len < 2 ^ (t_bits t - 1) ->
  mach_map_ring t len s = (r, s') ->
  match r with
  | Ret _ => True
  | Err e => (forall fd, w_fd (mc_w s') fd = w_fd (mc_w s) fd) /\
      (forall o, o < w_next (mc_w s) -> w_obj (mc_w s') o = w_obj (mc_w s) o) /\
      exists k, mach_error k e /\
        ((forall p, w_vm (mc_w s') p = w_vm (mc_w s) p) \/
         ((0 < k)%nat /\ refused_last (mc_w s) (mc_w s') /\ left_mapped t (mc_w s) (mc_w s') len)) /\
        if (k =? 3)%nat then one_port_more s s' else same_ports s s'
  | _ => False
  end.
Proof.
  intros t len s r s' Ht Hd Hl H. destruct (page_multiple t len Hd) as (n & ->).
  apply mach_map_ring_spec in H as (_ & (K1 & _ & _ & K) & A); [|exact Ht|exact Hl].
  destruct r as [pg|e| | |]; try contradiction; [exact I|].
  split; [intros fd; rewrite K1; reflexivity|]. split; [exact K|exact A].
Qed.
(** The last call is refused, the cleanup granted; both refused; length 0. *)
Example C31_case2 :
  let '(r, s') := mach_map_ring (t64 true) 8192 (ex_task [Grant 65536; Grant 0; Grant 2563; Refuse 3; Grant 0; Grant 0]) in
  let '(r2, s2) := mach_map_ring (t64 true) 8192 (ex_task [Grant 65536; Grant 0; Grant 2563; Refuse 3; Refuse 5; Grant 0]) in
  r = Err (error_kernel RingSecondary 3) /\ w_vm (mc_w s') 16 = None /\ w_vm (mc_w s') 19 = None /\ mc_ports s' 2563 <> None /\
  r2 = Err (error_kernel RingSecondary 3) /\ w_vm (mc_w s2) 16 <> None /\
  fst (mach_map_ring (t64 true) 0 (mach_world [])) = Err (error_kernel RingEntry KERN_INVALID_ARGUMENT).
Proof. vm_compute. intuition discriminate. Qed.
Print Assumptions C31_failure_partial.

(** Refusing the [k]-th call gives the error of that call with the kernel's
    code and restores the address space; granting all four succeeds at the
    address the kernel chose. *)
Theorem C31_stage_partial : forall t len pg x port y s,
  good_target t -> (t_page t | len) -> 0 < len < 2 ^ (t_bits t - 1) ->
  t_page t <= pg /\ pg mod t_page t = 0 /\ pg + 2 * len <= 2 ^ t_bits t - t_page t ->
  (forall p, pg <= t_page t * p < pg + 2 * len -> w_vm (mc_w s) p = None) -> mc_ports s port = None ->
  (forall k c z u q, (k < 4)%nat ->
     w_orc (mc_w s) = firstn k (mach_grants pg x port y) ++ Refuse c :: Grant z :: u :: q ->
     let '(r, s') := mach_map_ring t len s in
     r = Err (error_kernel (mach_stage k) c) /\ untouched (mc_w s) (mc_w s') /\
     (if (k =? 3)%nat then one_port_more s s' else same_ports s s')) /\
  (forall q, w_orc (mc_w s) = mach_grants pg x port y ++ q -> fst (mach_map_ring t len s) = Ret pg).
Proof.
  intros t len pg x port y s Ht Hd Hl Hpg Hf Hp. destruct (page_multiple t len Hd) as (n & ->).
  pose proof (SizeProofs.pow2_pos _ (proj1 (proj2 Ht))) as HP.
  assert (Hfree : forall p, pg / t_page t <= p < pg / t_page t + 2 * n -> w_vm (mc_w s) p = None).
  { intros p I. apply Hf. destruct Hpg as (_ & A & _). assert (n0 : 0 < n) by nia.
    pose proof (page_in t Ht pg n (t_page t * p) n0 A) as J.
    rewrite (Z.mul_comm (t_page t) p), Z.div_mul, (Z.mul_comm p) in J by lia. apply J, I. }
  split.
  - intros k c z u q Hk Hq. exact (mach_restored t Ht n pg x port y s Hl Hpg Hfree Hp k c z u q Hk Hq).
  - intros q Hq. destruct (mach_stages t Ht n pg x port y s Hl Hpg Hfree Hp 4 q (le_n 4) Hq) as [M _].
    destruct (M eq_refl) as (s' & E). rewrite E. reflexivity.
Qed.
Example C31_case3 : (4096 | 12288) /\ 65536 mod 4096 = 0 /\
  map (fun k => fst (mach_map_ring (t64 true) 12288
         (ex_task (firstn k (mach_grants 65536 0 2563 0) ++ [Refuse 23; Grant 0; Grant 0])))) [0; 1; 2; 3]%nat =
  [Err (error_kernel RingAllocate 23); Err (error_kernel RingPrimary 23); Err (error_kernel RingEntry 23);
   Err (error_kernel RingSecondary 23)].
Proof. split; [exists 3; reflexivity|]. vm_compute. auto 10. Qed.
Print Assumptions C31_stage_partial.

(** Creating a ring, any stores, dropping it: the address space is as before
    (unless the kernel refuses the deallocation), but the task keeps the
    port. *)
Theorem C31_create_drop_partial : forall t hint l s a s1,
  good_target t -> wf (mc_w s) -> is_usize t hint ->
  t_checks t = true \/ hint <= 2 ^ (t_bits t - 1) - t_alloc t ->
  mach_ring_new t hint s = (Ret a, s1) -> Forall (fun x => 0 <= fst x < 2 * ra_len a) l ->
  is_ceil (t_alloc t) hint (ra_len a) /\
  let '(r2, w2) := put_all t (ra_ptr a) l (mc_w s1) in
  let '(r3, s3) := mach_ring_drop t a {| mc_w := w2; mc_ports := mc_ports s1 |} in
  r2 = Ret tt /\ r3 = Ret tt /\ (forall fd, w_fd (mc_w s3) fd = w_fd (mc_w s) fd) /\
  (forall o, o < w_next (mc_w s) -> w_obj (mc_w s3) o = w_obj (mc_w s) o) /\ one_port_more s s3 /\
  ((forall p, w_vm (mc_w s3) p = w_vm (mc_w s) p) \/ (refused_last w2 (mc_w s3) /\ w_vm (mc_w s3) = w_vm (mc_w s1))).
Proof.
  intros t hint l s a s1 Ht Hw Hh Hs H F. split; [|exact (mach_life t Ht hint l s a s1 Hw Hh Hs H F)].
  destruct (mach_new_spec t Ht _ _ _ _ Hh Hs H) as (n & -> & C & _). exact C.
Qed.
Example C31_case4 :
  let '(r1, s1) := mach_ring_new (t64 true) 9000 (mach_world [Grant 0]) in
  r1 = Ret {| ra_ptr := 65536; ra_len := 12288 |} /\ w_vm (mc_w s1) 16 <> None /\ w_vm (mc_w s1) 21 <> None /\
  let '(r3, s3) := mach_ring_drop (t64 true) {| ra_ptr := 65536; ra_len := 12288 |} s1 in
  r3 = Ret tt /\ map (w_vm (mc_w s3)) [16; 17; 18; 19; 20; 21] = [None; None; None; None; None; None].
Proof. vm_compute. intuition discriminate. Qed.
Print Assumptions C31_create_drop_partial.

(** Refutes "no kernel port stays allocated", for every successful run: [k]
    rings made and dropped leave exactly [k] more ports. *)
Theorem C31_ports_refuted : forall t hints s s',
  good_target t ->
  (forall h, In h hints -> is_usize t h /\ (t_checks t = true \/ h <= 2 ^ (t_bits t - 1) - t_alloc t)) ->
  cycles t hints s = (Ret tt, s') -> ports_more (length hints) s s'.
Proof. intros t hints s s' Ht. exact (cycles_leak t Ht hints s s'). Qed.
Example C31_case5 :
  let '(r, s') := cycles (t64 true) [4096; 9000]
                    (mach_world [Grant 0; Grant 65536; Grant 0; Grant 2819; Grant 0; Grant 0]) in
  r = Ret tt /\ mc_ports s' 2563 <> None /\ mc_ports s' 2819 <> None /\ mc_ports s' 3075 = None /\ w_vm (mc_w s') 16 = None.
Proof. vm_compute. intuition discriminate. Qed.
Print Assumptions C31_ports_refuted.

(** With overflow checks a length of half the address space or more panics
    before anything is allocated. *)
Theorem C31_huge_partial : forall t len s, good_target t -> t_checks t = true -> 2 ^ (t_bits t - 1) <= len ->
  mach_map_ring t len s = (Panic, s).
Proof.
  intros t len s Ht Hc G. pose proof (bits_half t Ht) as [HB _]. unfold mach_map_ring, mbind. cbn [mout].
  unfold umul, wrap. rewrite Hc, (proj2 (Z.ltb_ge (2 * len) _)), Bool.andb_false_r by lia. reflexivity.
Qed.
Example C31_case6 : mach_map_ring (t64 true) (2 ^ 63) (mach_world []) = (Panic, mach_world []).
Proof. vm_compute. reflexivity. Qed.
Print Assumptions C31_huge_partial.

(** Without them [2 * len] wraps: on a 32-bit target whose tasks have the whole
    address space, [2 GiB + 4 KiB] reserves two pages, and the fixed
    allocation then replaces memory of the task far outside of them: page 64
    held a file mapping before the failed call. *)
Definition t32 : target := {| t_bits := 32; t_page := 4096; t_alloc := 4096; t_checks := false |}.
Definition busy_task (pg : Z) (q : list answer) : mach :=
  {| mc_w := set_vm (ex_world q) (fun p => if p =? pg then Some (entry 1 0 PRW true true) else None); mc_ports := fun _ => None |}.
Lemma busy_wf pg q : wf (mc_w (busy_task pg q)).
Proof.
  destruct (ex_wf q) as [A B C D]. split; [|exact B|exact C|exact D].
  cbn. intros p e. destruct (p =? pg); [|discriminate]. intros [= <-]. cbn. lia.
Qed.
Theorem C31_huge_refuted : ~ (forall t len s e s',
  good_target t -> wf (mc_w s) -> (t_page t | len) -> is_usize t len ->
  mach_map_ring t len s = (Err e, s') ->
  (forall p, w_vm (mc_w s') p = w_vm (mc_w s) p) \/ refused_last (mc_w s) (mc_w s')).
Proof.
  intros H.
  set (s := busy_task 64 [Grant 65536; Grant 0; Refuse 3; Grant 0; Grant 7]).
  destruct (mach_map_ring t32 (2 ^ 31 + 4096) s) as [r s'] eqn:E.
  assert (Er : r = Err (error_kernel RingEntry 3)) by (change r with (fst (r, s')); rewrite <- E; vm_compute; reflexivity). subst r.
  assert (Es : s' = snd (mach_map_ring t32 (2 ^ 31 + 4096) s)) by (rewrite E; reflexivity).
  apply H in E.
  - destruct E as [V|[R|(q & c & R)]].
    + specialize (V 64). rewrite Es in V. vm_compute in V. discriminate.
    + rewrite Es in R. vm_compute in R. discriminate.
    + assert (Q : w_orc (mc_w s') = [Grant 7]) by (rewrite Es; vm_compute; reflexivity). rewrite Q in R.
      change ([Grant 65536; Grant 0; Refuse 3; Grant 0] ++ [Grant 7] = q ++ [Refuse c; Grant 7]) in R.
      change [Refuse c; Grant 7] with ([Refuse c] ++ [Grant 7]) in R. rewrite app_assoc in R.
      apply app_inj_tail in R as [R _].
      change ([Grant 65536; Grant 0; Refuse 3] ++ [Grant 0] = q ++ [Refuse c]) in R. apply app_inj_tail in R as [_ R]. discriminate.
  - split; [left; reflexivity|]. split; [exists 12; split; [lia|reflexivity]|]. split; [exists 12; split; [lia|reflexivity]|]. vm_compute. intuition congruence.
  - apply busy_wf.
  - exists (2 ^ 19 + 1). reflexivity.
  - vm_compute. intuition congruence.
Qed.
Print Assumptions C31_huge_refuted.

(** A length that is no multiple of the page size (only reachable by calling
    [os::map_ring] directly): the kernel rounds each half up on its own, and
    the second half then overwrites the page after the reservation. *)
Theorem C31_unaligned_refuted : ~ (forall t len s pg s',
  good_target t -> wf (mc_w s) -> 0 < len < 2 ^ (t_bits t - 1) ->
  mach_map_ring t len s = (Ret pg, s') ->
  forall p, w_vm (mc_w s) p <> None -> w_vm (mc_w s') p = w_vm (mc_w s) p).
Proof.
  intros H. set (s := busy_task 19 (mach_grants 65536 0 2563 0)).
  destruct (mach_map_ring (t64 true) 4097 s) as [r s'] eqn:E.
  assert (Er : r = Ret 65536) by (change r with (fst (r, s')); rewrite <- E; vm_compute; reflexivity). subst r.
  assert (Es : s' = snd (mach_map_ring (t64 true) 4097 s)) by (rewrite E; reflexivity).
  apply H with (p := 19) in E.
  - rewrite Es in E. vm_compute in E. discriminate.
  - apply t64_good.
  - apply busy_wf.
  - vm_compute. intuition congruence.
  - vm_compute. discriminate.
Qed.
Print Assumptions C31_unaligned_refuted.
