(** Property theorems C85 on Windows: every mapped page, reservation and
    section handle is accounted for, whatever the kernel refuses.

    [wpfrom t s p]: [p] is the state after any history of calls on maps and
    rings from the kernel state [s], against any sequence of kernel answers
    and any interference of other threads. *)
From Coq Require Import Lia.
From Verif Require Import Base Spec ErrorModel RingSpec RingModel OsModel MapModel MapSpec ApiModel ApiSpec RingMapModel MemRingModel
  ProcModel WinModel WinSpec WinMapModel WinMapSpec WinProcModel WinProcSpec WinLedgerSpec WinLedger
  PropertiesSize PropertiesMap PropertiesWin PropertiesWinMap PropertiesWinProc.

(** ** Used in the examples only. *)
Lemma wprun_from t s h : forall p, wpfrom t s p -> Forall (wpcall_ok t) h -> wpfrom t s (snd (wprun t h p)).
Proof.
  induction h as [|c h IH]; cbn [wprun]; intros p R F; [exact R|]. inversion F; subst.
  pose proof (IH _ (wpf_step _ _ _ _ R H1) H2) as K. destruct (wpstep t c p) as [x p1]. cbn [snd] in K. destruct (wprun t h p1) as [xs p2]. exact K.
Qed.

(** ** C85: the mapped pages are those of the views and of the reservations
    made since the start, each of one only; the open sections are those of
    the start. *)
Theorem C85_win_ledger : forall t s p, good_target t -> wpfrom t s p ->
  tiled t s (g_s (wp_g p)) /\ forall h, n_sec (g_s (wp_g p)) h = n_sec s h.
Proof. intros t s p Ht. exact (wp_tiled t Ht s p). Qed.
(** What no map and no ring answers for stays as it is under every call. *)
Theorem C85_win_kept : forall t s p c, good_target t -> wpfrom t s p -> wpcall_ok t c ->
  keeps_orphans t (wp_g p) (wp_g (snd (wpstep t c p))).
Proof. intros t s p c Ht. exact (wp_kept t Ht s c p). Qed.
(** It comes from dropping an empty map, or from a release the kernel refused
    while something was dropped or a ring was made. *)
Theorem C85_win_left : forall t s p c, good_target t -> wpfrom t s p -> wpcall_ok t c ->
  explained t c (wp_g p) (wp_g (snd (wpstep t c p))).
Proof. intros t s p c Ht. exact (wp_explained t Ht s c p). Qed.
(** Making a ring leaves at most one view or reservation behind for each of
    its six attempts that failed. *)
Theorem C85_win_attempt : forall t s p c hint, good_target t -> wpfrom t s p -> wpcall_ok t c -> wp_makes c hint ->
  let '(x, p') := wpstep t c p in
  exists l, (length l <= match x with WNew (Ret _) => 5 | _ => 6 end)%nat /\ ring_sized t hint l /\ new_in t l (wp_g p) (wp_g p').
Proof. intros t s p c hint Ht. exact (wp_attempt t Ht s c p hint). Qed.

(** Two attempts fail before a ring is made: in the first the kernel refuses
    to release the reservation, in the second to map the second half and then
    to unmap the first.  A map is made, and the kernel refuses to unmap both
    the map and the ring when they are dropped. *)
Definition exl_answers : list answer :=
  [Grant 100; Grant 1048576; Refuse 5; Grant 0; Grant 2097152; Grant 0; Grant 0; Refuse 5; Refuse 5;
   Grant 3145728; Grant 0; Grant 0; Grant 0; Grant 101; Grant 4194304; Refuse 5; Refuse 5].
Definition exl_calls : list wpcall := [WRing 70000; WAct (AAlloc true (opt_len (ExtExact 4200) mapmut_with_options)); WAct (ADrop 1); WDrop 0].
Lemma exl_ok c : Forall (wpcall_ok (twin c)) exl_calls.
Proof. wcalls_ok. Qed.
Example C85_win_case : forall c,
  let s := ex_win [] exl_answers in
  let run n := snd (wprun (twin c) (firstn n exl_calls) (wp_fresh s)) in
  (forall n, wpfrom (twin c) s (run n)) /\
  wp_makes (WRing 70000) 70000 /\
  map (fun a => (n_view (g_s (wp_g (run 1%nat))) a, n_resv (g_s (wp_g (run 1%nat))) a)) [1048576; 2097152; 3145728; 3276800] =
    [(None, Some 64); (Some 32, None); (Some 32, None); (Some 32, None)] /\
  orphan (twin c) (wp_g (run 1%nat)) 2097152 /\ ~ orphan (twin c) (wp_g (run 1%nat)) 3145728 /\
  (orphan (twin c) (wp_g (run 4%nat)) 2097152 /\ orphan (twin c) (wp_g (run 4%nat)) 3145728 /\ orphan (twin c) (wp_g (run 4%nat)) 3276800 /\
   orphan (twin c) (wp_g (run 4%nat)) 4194304) /\
  map (fun p => match w_vm (n_w (g_s (wp_g (run 4%nat)))) p with Some _ => true | None => false end) [255; 256; 319; 320; 512; 543; 544; 768; 831; 832; 1024; 1026] =
    [false; true; true; false; true; true; false; true; true; false; true; false].
Proof.
  intros c s run.
  assert (Fr : forall n, wpfrom (twin c) s (run n)).
  { intros n. apply wprun_from; [apply wpf_start, exw_fresh|]. pose proof (exl_ok c) as F. rewrite <- (firstn_skipn n exl_calls) in F. apply Forall_app in F. apply F. }
  split; [exact Fr|]. split; [left; reflexivity|].
  assert (T1 : forall k x, g_tab (wp_g (run 1%nat)) k = Some x -> k = 0 /\ exists o, x = TRing {| ra_ptr := 3145728; ra_len := 131072 |} o).
  { intros k x. destruct c; vm_compute; destruct k as [|q|q]; try discriminate; intros [= <-]; eauto. }
  assert (T4 : forall k, g_tab (wp_g (run 4%nat)) k = None).
  { intros k. destruct c; vm_compute; destruct k as [|q|q]; try reflexivity; repeat (destruct q; try reflexivity). }
  split; [destruct c; vm_compute; reflexivity|]. split; [|split; [|split]].
  - split; [destruct c; vm_compute; discriminate|]. intros k x H B. destruct (T1 k x H) as (_ & o & ->). cbn in B. lia.
  - intros [_ N]. assert (E : exists o, g_tab (wp_g (run 1%nat)) 0 = Some (TRing {| ra_ptr := 3145728; ra_len := 131072 |} o)) by (destruct c; vm_compute; eauto).
    destruct E as [o E]. apply (N _ _ E). left. reflexivity.
  - repeat split; try (destruct c; vm_compute; discriminate); intros k x H; rewrite T4 in H; discriminate H.
  - destruct c; vm_compute; reflexivity.
Qed.
Print Assumptions C85_win_ledger.
Print Assumptions C85_win_kept.
Print Assumptions C85_win_left.
Print Assumptions C85_win_attempt.
