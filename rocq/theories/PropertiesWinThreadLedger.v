(** Property theorems C99: calls in progress leave nothing behind (Windows).

    [wtreached t s0 s], [wtrun t h s]: as in C97 and C98.  [wttidy t s0 s]:
    [s] is reached by an interleaving in which the kernel refused to release
    nothing and the program dropped no map of length zero.  [wfiles t s0 s D]:
    [D] are the files the program has then: those open at the start and those
    handed to it, until it closes them. *)
From Coq Require Import Lia.
From Verif Require Import Base Spec ErrorModel OsModel MapModel MapSpec ApiModel ApiSpec RingMapModel MemRingModel SizeModel
  ProcModel WinModel WinSpec WinMapModel WinMapSpec WinProcModel WinProcSpec WinLedgerSpec WinLedger
  WinThreadModel WinThreadSpec WinThreadInv WinThreadStep WinThreadAlone WinThreadClaims WinThreadClaims2 WinThreadLedgerSpec WinThreadLedger WinThreadFiles
  PropertiesSize PropertiesMap PropertiesWin PropertiesWinMap PropertiesWinProc PropertiesWinThread.

(** The mapped pages are those of the views and of the reservations made since
    the start, each of one only, at every moment of every interleaving. *)
Theorem C99_tiled : forall t s0 s, good_target t -> wtreached t s0 s -> tiled t s0 (wkern s).
Proof. intros t s0 s Ht R. exact (gk_tiled t _ _ _ (tk_g t _ _ (wtreached_ok t Ht s0 s R))). Qed.
(** A view or a reservation that no map, no ring and no call in progress
    answers for comes from dropping a map of length zero, or from a release
    that the kernel refused: *)
Theorem C99_left : forall t s0 s e, good_target t -> wtreached t s0 s -> wev_ok t e ->
  let s' := snd (wtstep t e s) in
  (forall a, loose_view t s' a -> loose_view t s a \/ cut_loose t e s s' a) /\
  (forall a, loose_resv s0 s' a -> loose_resv s0 s a \/
     exists tid pd, e = WEGo tid /\ wt_pool s tid = Some pd /\ wpd_reserved pd a /\ refused_release (wkern s) (wkern s')).
Proof.
  intros t s0 s e Ht R He. pose proof (wtreached_ok t Ht s0 s R) as K. split; intros a; [exact (view_left t Ht s0 s e a K He)|exact (resv_left_by t Ht s0 s e a K He)].
Qed.
(** and nothing that happens touches it again. *)
Theorem C99_kept : forall t s0 s e, good_target t -> wtreached t s0 s -> wev_ok t e ->
  let s' := snd (wtstep t e s) in
  (forall a, loose_view t s a -> loose_view t s' a /\ n_view (wkern s') a = n_view (wkern s) a) /\
  (forall a, loose_resv s0 s a -> loose_resv s0 s' a /\ n_resv (wkern s') a = n_resv (wkern s) a).
Proof.
  intros t s0 s e Ht R He. pose proof (wtreached_ok t Ht s0 s R) as K. split; intros a; [exact (view_kept t Ht s0 s e a K He)|exact (resv_kept t Ht s0 s e a K He)].
Qed.
(** So if the kernel refuses to release nothing and no map of length zero is
    dropped, nothing is left behind: every mapped page is that of a map, a
    ring or a call in progress, also after calls that failed at any of their
    system calls and after places lost to other threads. *)
Theorem C99_tidy : forall t s0 s pg, good_target t -> wttidy t s0 s -> w_vm (n_w (wkern s)) pg <> None ->
  exists a n, in_view t a n pg /\
    ((n_view (wkern s) a = Some n /\ ~ forall z, ~ wholds t s z a) \/
     (left_resv s0 (wkern s) a n /\ ~ forall tid pd, wt_pool s tid = Some pd -> ~ wpd_reserved pd a)).
Proof.
  intros t s0 s pg Ht T V. destruct (tidy_none t Ht s0 s T) as [N1 N2]. apply (td_page _ _ _ (C99_tiled t s0 s Ht (tidy_reached t s0 s T))) in V as (a & n & [V|V] & I);
    exists a, n; (split; [exact I|]); [left|right]; (split; [exact V|]); intros H.
  - apply (N1 a). split; [congruence|exact H].
  - apply (N2 a). destruct V as [V1 V2]. split; [exact V1|]. split; [congruence|exact H].
Qed.
(** When no call is in progress and everything is dropped, nothing is mapped. *)
Theorem C99_quiet : forall t s0 s, good_target t -> wttidy t s0 s -> (forall tid, wt_pool s tid = None) -> (forall k, g_tab (wp_g (wt_p s)) k = None) ->
  (forall pg, w_vm (n_w (wkern s)) pg = None) /\ (forall a, n_view (wkern s) a = None) /\
  (forall a, n_resv (wkern s) a = n_resv s0 a) /\ (forall h, n_sec (wkern s) h = n_sec s0 h).
Proof.
  intros t s0 s Ht T Np Nt. pose proof (tidy_reached t s0 s T) as R. pose proof (C99_tiled t s0 s Ht R) as Td. destruct (tidy_none t Ht s0 s T) as [N1 N2].
  assert (Nw : forall z a, ~ wholds t s z a).
  { intros [k|i] a (x & H & _); [rewrite Nt in H|rewrite Np in H]; discriminate H. }
  assert (Nv : forall a, n_view (wkern s) a = None).
  { intros a. destruct (n_view (wkern s) a) eqn:E; [|reflexivity]. destruct (N1 a). split; [congruence|]. intros y. apply Nw. }
  assert (Nr : forall a, n_resv (wkern s) a = n_resv s0 a).
  { intros a. destruct (n_resv s0 a) as [n|] eqn:E0; [exact (td_old _ _ _ Td a n E0)|]. destruct (n_resv (wkern s) a) eqn:E; [|reflexivity].
    destruct (N2 a). split; [exact E0|]. split; [congruence|]. intros tid pd H. rewrite Np in H. discriminate H. }
  split; [|split; [exact Nv|split; [exact Nr|exact (C98_handles_closed t s0 s Ht R Np)]]].
  intros pg. destruct (w_vm (n_w (wkern s)) pg) eqn:E; [|reflexivity].
  destruct (proj1 (td_page _ _ _ Td pg) ltac:(congruence)) as (a & n & [V|[V1 V2]] & _); [rewrite Nv in V; discriminate V|rewrite Nr in V2; congruence].
Qed.
(** Every open file is the program's, or that of exactly one call in progress:
    no call that failed has left a file open, and no call has closed a file of
    the program, or of another thread. *)
Theorem C99_files : forall t s0 s D, good_target t -> wfiles t s0 s D -> wfiles_accounted s D.
Proof. intros t s0 s D Ht H. exact (proj1 (proj2 (files_ok t Ht s0 s D H))). Qed.
Theorem C99_files_quiet : forall t s0 s D, good_target t -> wfiles t s0 s D -> (forall tid, wt_pool s tid = None) ->
  forall fd, w_fd (n_w (wkern s)) fd <> None <-> D fd.
Proof.
  intros t s0 s D Ht H N fd. destruct (C99_files t s0 s D Ht H fd) as (A & _). rewrite A. split; [|auto].
  intros [Q|(i & pd & Q & _)]; [exact Q|]. rewrite N in Q. discriminate Q.
Qed.

(** ** Thread 1 makes a ring: at the first place the kernel refuses to release
    the reservation, at the second to map the second half and to unmap the
    first.  Thread 2 opens file 7, whose map is refused. *)
Definition exz_events : list wevent :=
  [WERing 1 false 70000; WEOpen 2 true mapmut_with_options 7; WEGo 1; WEGo 2; WEGo 1; WEGo 2; WEGo 1; WEGo 2; WEGo 1; WEGo 2; WEGo 2; WEGo 1; WEGo 2; WEGo 1;
   WEGo 2; WEGo 1; WEGo 1; WEGo 2; WEGo 1; WEGo 1; WEGo 1; WEGo 1; WEGo 1; WEGo 1].
Definition exz_answers : list answer :=
  [Grant 88; Grant 5; Grant 1048576; Grant 0; Refuse 5; Grant 0; Grant 90; Grant 2097152; Refuse 8; Grant 0; Grant 0; Refuse 5; Refuse 5;
   Grant 3145728; Grant 0; Grant 0; Grant 0].
Definition exz_s0 : win := ex_win [] exz_answers.
Definition exz_at (n : nat) : wtsys := snd (wtrun (twin true) (firstn n exz_events) (widle exz_s0)).
Lemma exz_ok c : Forall (wev_ok (twin c)) exz_events.
Proof. wevents_ok. Qed.
Lemma exz_reached n : wtreached (twin true) exz_s0 (exz_at n).
Proof. apply wtrun_reached; [apply wtr_start, exw_fresh|apply Forall_firstn, exz_ok]. Qed.
Example C99_tiled_case :
  wtreached (twin true) exz_s0 (exz_at 16) /\
  map (fun a => (n_view (wkern (exz_at 16)) a, n_resv (wkern (exz_at 16)) a)) [1048576; 2097152; 2228224] = [(None, Some 64); (Some 32, None); (None, None)] /\
  map (fun p => match w_vm (n_w (wkern (exz_at 16))) p with Some _ => true | None => false end) [255; 256; 319; 320; 511; 512; 543; 544] =
    [false; true; true; false; false; true; true; false].
Proof. split; [apply exz_reached|]. split; vm_compute; reflexivity. Qed.
Ltac nobody i H := vm_compute in H; destruct i as [|q|q]; try discriminate H; repeat (destruct q; try discriminate H); injection H as <-; intros []; fail.
(** The reservation is left behind at the seventh event, the view at the
    nineteenth; thread 1 has the view before, and the ring it makes after. *)
Example C99_left_case :
  (loose_resv exz_s0 (exz_at 7) 1048576 /\ ~ loose_resv exz_s0 (exz_at 6) 1048576) /\
  (loose_view (twin true) (exz_at 19) 2097152 /\ ~ loose_view (twin true) (exz_at 18) 2097152) /\
  (loose_resv exz_s0 (exz_at 24) 1048576 /\ loose_view (twin true) (exz_at 24) 2097152 /\ ~ loose_view (twin true) (exz_at 24) 3276800).
Proof.
  assert (P7 : forall i pd, wt_pool (exz_at 7) i = Some pd -> ~ wpd_reserved pd 1048576) by (intros i pd Hp; nobody i Hp).
  assert (T19 : forall k, g_tab (wp_g (wt_p (exz_at 19))) k = None) by (intros k; vm_compute; reflexivity).
  assert (P19 : forall i pd, wt_pool (exz_at 19) i = Some pd -> ~ wpd_view (twin true) pd 2097152) by (intros i pd Hp; nobody i Hp).
  assert (P24 : forall i, wt_pool (exz_at 24) i = None) by (intros i; vm_compute; destruct i as [|q|q]; try reflexivity; repeat (destruct q; try reflexivity)).
  assert (T24 : forall k x, g_tab (wp_g (wt_p (exz_at 24))) k = Some x -> exists o, x = TRing {| ra_ptr := 3145728; ra_len := 131072 |} o)
    by (intros k x; vm_compute; destruct k as [|q|q]; try discriminate; intros [= <-]; eauto).
  split; [split|split; [split|split; [|split]]].
  - split; [reflexivity|]. split; [vm_compute; discriminate|exact P7].
  - intros (_ & _ & H). eapply (H 1); [vm_compute; reflexivity|reflexivity].
  - split; [vm_compute; discriminate|]. intros [k|i] (x & H & B); [rewrite T19 in H; discriminate H|exact (P19 i x H B)].
  - intros (_ & H). apply (H (WThread 1)). eexists. split; [vm_compute; reflexivity|reflexivity].
  - split; [reflexivity|]. split; [vm_compute; discriminate|]. intros i pd H. rewrite P24 in H. discriminate H.
  - split; [vm_compute; discriminate|]. intros [k|i] (x & H & B); [|rewrite P24 in H; discriminate H]. destruct (T24 k x H) as [o ->]. destruct B as [B|B]; cbn in B; lia.
  - intros (_ & H). apply (H (WThing 0)). eexists. split; [vm_compute; reflexivity|]. right. reflexivity.
Qed.

(** Used in examples only: checking that a run is tidy. *)
Definition released (x : wcall * bool) : bool := match x with (WRelease _, false) | (WUnmap _, false) => false | _ => true end.
Definition full_drop (e : wevent) (s : wtsys) : bool :=
  match e with
  | WECall (WAct (ADrop k)) => match g_tab (wp_g (wt_p s)) k with Some (TMap v) => negb (m_len (v_map v) =? 0) | _ => true end
  | _ => true
  end.
Fixpoint tidy_run (t : target) (h : list wevent) (s : wtsys) : bool :=
  match h with
  | [] => true
  | e :: h => let s' := snd (wtstep t e s) in full_drop e s && forallb released (n_log (wkern s')) && tidy_run t h s'
  end.
Lemma tidy_run_tidy t s0 h : forall s, wttidy t s0 s -> Forall (wev_ok t) h -> tidy_run t h s = true -> wttidy t s0 (snd (wtrun t h s)).
Proof.
  induction h as [|e h IH]; intros s T F C; [exact T|]. apply Forall_cons_iff in F as [He F]. cbn [tidy_run] in C. apply andb_prop in C as [C C3]. apply andb_prop in C as [C1 C2].
  rewrite run_snd. apply IH; [|exact F|exact C3]. apply wty_step; [exact T|exact He| |].
  - destruct e as [c|? ? ? ?|? ? ? ?|? ? ?|? ? ?|? ?|?]; try exact Logic.I. destruct c as [a|?|?|? ?|? ?|?]; try exact Logic.I. destruct a; try exact Logic.I. intros x Hx M. cbn in C1. rewrite Hx in C1.
    destruct x as [v|r o]; [|exact M]. cbn in M. rewrite M in C1. discriminate C1.
  - intros (l & Hl & a & I). rewrite forallb_forall in C2. unfold calls in Hl. rewrite Hl in C2.
    destruct I as [I|I]; (assert (X := C2 _ (in_or_app _ _ _ (or_introl I))); discriminate X).
Qed.
(** The interleaving of C97 (thread 1 loses a place to thread 3); then
    everything is dropped. *)
Definition exq_drops : list wevent := [WECall (WAct (ADrop 0)); WEDrop 1 2; WEGo 1; WECall (WAct (ADrop 1)); WEGo 1].
Definition exq_at (n : nat) : wtsys := snd (wtrun (twin true) (exw_events ++ firstn n exq_drops) (widle (exw_s0 (repeat (Grant 0) 4)))).
Lemma exq_tidy n : wttidy (twin true) (exw_s0 (repeat (Grant 0) 4)) (exq_at n).
Proof.
  apply tidy_run_tidy; [apply wty_start, exw_fresh| |].
  - apply Forall_app. split; [apply exw_events_ok|apply Forall_firstn]. wevents_ok.
  - do 6 (destruct n as [|n]; [vm_compute; reflexivity|]). destruct n; vm_compute; reflexivity.
Qed.
Example C99_tidy_case :
  wttidy (twin true) (exw_s0 (repeat (Grant 0) 4)) (exq_at 3) /\
  wt_pool (exq_at 3) 1 = Some (DFirst {| ra_ptr := 786432; ra_len := 131072 |} 2) /\
  map (fun p => match w_vm (n_w (wkern (exq_at 3))) p with Some _ => true | None => false end) [192; 223; 224; 64; 32; 33] = [true; true; false; false; true; true].
Proof. split; [apply exq_tidy|]. split; vm_compute; reflexivity. Qed.
Example C99_quiet_case :
  wttidy (twin true) (exw_s0 (repeat (Grant 0) 4)) (exq_at 5) /\
  (forall tid, wt_pool (exq_at 5) tid = None) /\ (forall k, g_tab (wp_g (wt_p (exq_at 5))) k = None) /\ length (n_log (wkern (exq_at 5))) = 19%nat.
Proof.
  split; [apply exq_tidy|]. split; [|split; [|vm_compute; reflexivity]].
  - intros i. vm_compute. destruct i as [|q|q]; try reflexivity. repeat (destruct q; try reflexivity).
  - intros i. vm_compute. destruct i as [|q|q]; try reflexivity. repeat (destruct q; try reflexivity).
Qed.

(** Used in examples only. *)
Lemma files_run t s0 h : forall s D, wfiles t s0 s D -> Forall (wev_ok t) h -> Forall (fun e => match e with WECall (WAct (AClose _)) => False | _ => True end) h ->
  exists D', wfiles t s0 (snd (wtrun t h s)) D'.
Proof.
  induction h as [|e h IH]; intros s D T F C; [exists D; exact T|]. apply Forall_cons_iff in F as [He F]. apply Forall_cons_iff in C as [Ce C].
  rewrite run_snd. eapply IH; [|exact F|exact C]. apply wfl_step; [exact T|exact He|]. intros fd ->. destruct Ce.
Qed.
(** Thread 2 opened file 7 as 5 and closes it when its map is refused; the file
    3 of the program stays open. *)
Example C99_files_case :
  (exists D, wfiles (twin true) exz_s0 (exz_at 17) D /\ w_fd (n_w (wkern (exz_at 17))) 5 <> None /\ wbusy_file (exz_at 17) 2 5 /\ ~ D 5) /\
  (exists D, wfiles (twin true) exz_s0 (exz_at 24) D /\ ~ D 5 /\ D 3).
Proof.
  assert (W : forall n, exists D, wfiles (twin true) exz_s0 (exz_at n) D).
  { intros n. eapply files_run; [apply wfl_start, exw_fresh|apply Forall_firstn, exz_ok|apply Forall_firstn; repeat (apply Forall_cons; [exact Logic.I|]); apply Forall_nil]. }
  split.
  - destruct (W 17%nat) as [D H]. exists D. assert (B : wbusy_file (exz_at 17) 2 5) by (eexists; split; [vm_compute; reflexivity|reflexivity]).
    split; [exact H|]. split; [vm_compute; discriminate|]. split; [exact B|]. exact (proj1 (proj2 (C99_files _ _ _ _ (twin_good true) H 5)) 2 B).
  - destruct (W 24%nat) as [D H]. exists D. split; [exact H|].
    assert (P24 : forall i, wt_pool (exz_at 24) i = None) by (intros i; vm_compute; destruct i as [|q|q]; try reflexivity; repeat (destruct q; try reflexivity)).
    pose proof (C99_files_quiet _ _ _ _ (twin_good true) H P24) as Q. split.
    + intros d. apply (proj2 (Q 5) d). vm_compute. reflexivity.
    + apply Q. vm_compute. discriminate.
Qed.
Print Assumptions C99_tiled.
Print Assumptions C99_left.
Print Assumptions C99_kept.
Print Assumptions C99_tidy.
Print Assumptions C99_quiet.
Print Assumptions C99_files.
Print Assumptions C99_files_quiet.
