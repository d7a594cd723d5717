(** The functions of the module [os] on Windows, with rings: C111. *)
From Coq Require Import Lia.
From Verif Require Import Base ErrorModel OsModel MapModel MapSpec RingMapModel RingMapSpec WinModel WinSpec WinMapSpec PropertiesMap PropertiesWin OsLayerModel OsLayerSpec
  WinOsModel WinOsSpec WinOsRingModel WinOsRingSpec WinOsRingProofs WinOsRingMirror.

(** After any calls, the pages and views are what the answers say, if they were
    at the start and no VirtualFree or UnmapViewOfFile failed while a ring was
    made. *)
Theorem C111_page_table : forall t h s S, good_target t -> Forall (wrcall_ok t) h -> table t s S ->
  Forall clean (fst (wrrun t h s)) ->
  table t (snd (wrrun t h s)) (fun q => fold_left (wrpage_after t q) (fst (wrrun t h s)) (S q)).
Proof. intros t h s S Ht. exact (wrrun_table t Ht h s S). Qed.
(** Two rings; pages of the first protected and locked, its first half unmapped
    as if it were a map; the second unmapped, but the kernel keeps its first
    half, which nobody learns. *)
Definition ex_wring : list wrcall :=
  [WMapRing 65536; WMapRing 65536; WOs 3 (OProtect 200704 4096 ReadOnly); WOs 3 (OLock 200704 1); WOs 3 (OUnmap 131072 1); WUnmapRing 327680 65536].
Definition ex_wring_answers : list answer :=
  [Grant 88; Grant 131072; Grant 0; Grant 0; Grant 0; Grant 88; Grant 327680; Grant 0; Grant 0; Grant 0; Grant 0; Grant 0; Grant 0; Grant 0; Refuse 487].
Example C111_case : table (twin true) (ex_win [] ex_wring_answers) (fun _ => None) /\
  Forall (wrcall_ok (twin true)) ex_wring /\
  Forall clean (fst (wrrun (twin true) ex_wring (ex_win [] ex_wring_answers))) /\
  map (fun e => match ev_answer e with Ret a => a | Err _ => -1 | _ => -2 end) (fst (wrrun (twin true) ex_wring (ex_win [] ex_wring_answers))) =
    [131072; 327680; 0; 0; -1; 0] /\
  map (fun q => option_map access_of (w_vm (n_w (snd (wrrun (twin true) ex_wring (ex_win [] ex_wring_answers)))) q)) [32; 48; 49; 63; 80; 96] =
    [None; Some wring_access; Some {| ac_w := false; ac_x := false; ac_shared := true; ac_lock := true |}; Some wring_access; Some wring_access; None].
Proof.
  split; [|split; [|split; [|split]]].
  - split; [reflexivity| |discriminate]. intros b n H. discriminate H.
  - unfold ex_wring. repeat (apply Forall_cons; [cbn; unfold is_usize; cbn; try lia; exact Logic.I|]). apply Forall_nil.
  - assert (L : forall l, l = map (fun e => (ev_call e, ev_kernel e)) (fst (wrrun (twin true) ex_wring (ex_win [] ex_wring_answers))) ->
      forallb (fun x => match fst x with WMapRing _ => forallb snd (snd x) | _ => true end) l = true) by (intros l ->; vm_compute; reflexivity).
    specialize (L _ eq_refl). rewrite forallb_forall in L. apply Forall_forall. intros e I. specialize (L _ (in_map _ _ _ I)). cbn [fst snd] in L.
    unfold clean. destruct (ev_call e); [exact Logic.I| |exact Logic.I]. rewrite forallb_forall in L.
    intros (a & [K|K]); apply L in K; discriminate K.
  - vm_compute. reflexivity.
  - vm_compute. reflexivity.
Qed.
Print Assumptions C111_page_table.

(** The two halves of a ring show the same bytes after any further calls that
    unmap neither, whatever is protected, locked, flushed, stored and mapped in
    between, and whatever the kernel refuses. *)
Theorem C111_mirror : forall t len s pg s1 h i,
  good_target t -> wf (n_w s) -> space_ok t s -> is_usize t len -> win_map_ring t len s = (Ret pg, s1) ->
  Forall (wrcall_ok t) h ->
  (forall e, In e (fst (wrrun t h s1)) -> ~ drops_view t pg e /\ ~ drops_view t (pg + len) e) -> 0 <= i < len ->
  exists b, load (E:=error) t (n_w (snd (wrrun t h s1))) (pg + i) = Ret b /\
            load (E:=error) t (n_w (snd (wrrun t h s1))) (pg + len + i) = Ret b.
Proof. intros t len s pg s1 h i Ht. exact (wmirror_law t Ht len s pg s1 h i). Qed.
(** A byte stored in the second half while the first is read only; another ring
    made and unmapped in between, and one unmapped as a map that is none. *)
Definition ex_wmirror : list wrcall :=
  [WOs 3 (OProtect 131072 65536 ReadOnly); WMapRing 65536; WOs 3 (OStore (196608 + 5000) 7); WUnmapRing 327680 65536; WOs 3 (OUnmap 135168 4096)].
Definition ex_wmirror_start : win :=
  ex_win [] [Grant 88; Grant 131072; Grant 0; Grant 0; Grant 0; Grant 0; Grant 88; Grant 327680; Grant 0; Grant 0; Grant 0; Grant 0; Grant 0; Grant 0].
Example C111_case2 :
  let s1 := snd (win_map_ring (twin true) 65536 ex_wmirror_start) in
  wf (n_w ex_wmirror_start) /\ space_ok (twin true) ex_wmirror_start /\
  fst (win_map_ring (twin true) 65536 ex_wmirror_start) = Ret 131072 /\
  Forall (wrcall_ok (twin true)) ex_wmirror /\
  (forall e, In e (fst (wrrun (twin true) ex_wmirror s1)) -> ~ drops_view (twin true) 131072 e /\ ~ drops_view (twin true) (131072 + 65536) e) /\
  map ev_answer (fst (wrrun (twin true) ex_wmirror s1)) = [Ret 0; Ret 327680; Ret 0; Ret 0; Ret 0] /\
  load (E:=error) (twin true) (n_w (snd (wrrun (twin true) ex_wmirror s1))) (131072 + 5000) = Ret 7.
Proof.
  cbv zeta. split; [|split; [|split; [|split; [|split; [|split]]]]].
  - split; cbn; try discriminate.
    + intros fd f. destruct (Z.eqb_spec fd 3) as [->|]; [intros H; injection H as <-; cbn; lia|].
      destruct (Z.eqb_spec fd 4) as [->|]; [intros H; injection H as <-; cbn; lia|discriminate].
    + intros path o. destruct (path =? 7); [|discriminate]. intros H. injection H as <-. lia.
    + intros o. destruct (o =? 1); cbn; lia.
  - split; cbn; discriminate.
  - vm_compute. reflexivity.
  - unfold ex_wmirror. repeat (apply Forall_cons; [cbn; unfold is_usize; cbn; try lia; exact Logic.I|]). apply Forall_nil.
  - assert (L : forall l, l = map (fun e => (ev_call e, ev_answer e)) (fst (wrrun (twin true) ex_wmirror (snd (win_map_ring (twin true) 65536 ex_wmirror_start)))) ->
      l = combine ex_wmirror [Ret 0; Ret 327680; Ret 0; Ret 0; Ret 0]) by (intros l ->; vm_compute; reflexivity).
    specialize (L _ eq_refl). intros e I. apply (in_map (fun e => (ev_call e, ev_answer e))) in I. rewrite L in I. clear L.
    unfold drops_view. cbn [ex_wmirror combine] in I.
    destruct I as [I|[I|[I|[I|[I|[]]]]]]; injection I as I1 I2; rewrite <- I1; try rewrite <- I2; try (split; intros []; fail).
    cbn [twin t_bits]. rewrite Z.mod_small by (cbn; lia). lia.
  - vm_compute. reflexivity.
  - vm_compute. reflexivity.
Qed.
Print Assumptions C111_mirror.

(** map_ring answers a ring, or an error of one of its stages with the code of
    the system, or panics if twice the length is no word and the build checks
    for overflow; it keeps no handle. *)
Theorem C111_map_answers : forall t len s r s', good_target t -> is_usize t len -> win_map_ring t len s = (r, s') ->
  (forall h, n_sec s' h = n_sec s h) /\ (forall fd, w_fd (n_w s') fd = w_fd (n_w s) fd) /\ (forall path, w_fs (n_w s') path = w_fs (n_w s) path) /\
  match r with
  | Ret _ => True
  | Err e => ring_stage (e_op e) /\ exists code, raw_os_error e = Some code
  | Panic => t_checks t = true /\ 2 ^ t_bits t <= 2 * len /\ s' = s
  | _ => False
  end.
Proof. intros t len s r s' Ht. exact (map_ring_answers t Ht len s r s'). Qed.
(** unmap_ring, for any address and length: it never panics, an error means
    that nothing changed, and it succeeds only if a view starts behind the
    length; if the system refuses nothing, exactly then. *)
Theorem C111_unmap_answers : forall t pg len s r s', win_unmap_ring t pg len s = (r, s') ->
  (forall h, n_sec s' h = n_sec s h) /\ (forall fd, w_fd (n_w s') fd = w_fd (n_w s) fd) /\ (forall path, w_fs (n_w s') path = w_fs (n_w s) path) /\
  (forall o, w_obj (n_w s') o = w_obj (n_w s) o) /\
  match r with
  | Ret _ => n_view s ((pg + len) mod 2 ^ t_bits t) <> None
  | Err e => e_op e = RingDeallocate /\ (exists code, raw_os_error e = Some code) /\ same_space s s'
  | _ => False
  end.
Proof. exact unmap_ring_answers. Qed.
Theorem C111_unmap_iff : forall t pg len s a o, w_orc (n_w s) = Grant a :: o ->
  (exists s', win_unmap_ring t pg len s = (Ret tt, s')) <-> n_view s ((pg + len) mod 2 ^ t_bits t) <> None.
Proof. exact wunmap_ring_iff. Qed.
(** A ring; an overflow; a length no view can follow, tried until the system
    refuses; a length that does not fit the ring, and one that does. *)
Example C111_case3 :
  fst (win_map_ring (twin true) 65536 ex_wmirror_start) = Ret 131072 /\
  fst (win_map_ring (twin true) (2 ^ 63) ex_wmirror_start) = Panic /\
  (match fst (win_map_ring (twin true) 5000 ex_wmirror_start) with Err e => e_op e = RingAllocate | _ => False end) /\
  (match fst (win_unmap_ring (twin true) 131072 4096 (ex_ring [Grant 0; Grant 0])) with Err e => e_op e = RingDeallocate | _ => False end) /\
  fst (win_unmap_ring (twin true) 131072 65536 (ex_ring [Grant 0; Grant 0])) = Ret tt /\
  n_view (ex_ring [Grant 0; Grant 0]) ((131072 + 65536) mod 2 ^ 64) <> None.
Proof. do 5 (split; [vm_compute; reflexivity|]). vm_compute. discriminate. Qed.
Print Assumptions C111_map_answers.
Print Assumptions C111_unmap_answers.
Print Assumptions C111_unmap_iff.

(** Success of unmap_ring does not mean that the ring is gone: the result for
    the first half is dropped. *)
Theorem C111_unmap_both_refuted : ~ (forall t pg len s s', good_target t -> n_view s pg <> None -> n_view s (pg + len) <> None ->
  win_unmap_ring t pg len s = (Ret tt, s') -> n_view s' pg = None /\ n_view s' (pg + len) = None).
Proof.
  intros F. destruct (win_unmap_ring (twin true) 131072 65536 (ex_ring [Grant 0; Refuse 487])) as [r s'] eqn:E.
  assert (R : forall x, x = win_unmap_ring (twin true) 131072 65536 (ex_ring [Grant 0; Refuse 487]) -> fst x = Ret tt /\ n_view (snd x) 131072 = Some 16).
  { intros x ->. vm_compute. split; reflexivity. }
  destruct (R _ (eq_sym E)) as [R1 R2]. cbn [fst snd] in R1, R2. subst r.
  destruct (F (twin true) 131072 65536 (ex_ring [Grant 0; Refuse 487]) s' (twin_good true)) as [X _]; [vm_compute; discriminate|vm_compute; discriminate|exact E|].
  rewrite R2 in X. discriminate X.
Qed.
Print Assumptions C111_unmap_both_refuted.
