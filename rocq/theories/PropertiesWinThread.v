(** Property theorems C97 and C98: what happens between the system calls of
    one call (Windows).

    [wtreached t s0 s]: [s] is the state after any interleaving of any number
    of threads, each of which may be in the middle of a call that makes a map
    or a ring or drops a ring; from any machine [s0] on which nothing is
    mapped, against any sequence of kernel answers.  [wtrun t h s]: the events
    [h] happen.  [WEGo tid]: thread [tid] makes its next system call. *)
From Coq Require Import Lia.
From Verif Require Import Base Spec ErrorModel RingSpec RingModel RingTheorems RingClaims SizeModel OsModel MapModel MapSpec ApiModel ApiSpec RingMapModel RingMapSpec OsProofs MemRingModel
  ProcModel ProcSpec WinModel WinSpec WinMapModel WinMapSpec WinSpace WinThings WinHist WinMapClaims WinProcModel WinProcSpec WinProcProofs WinProcClaims
  WinThreadModel WinThreadSpec WinThreadInv WinThreadStep WinThreadAlone WinThreadClaims WinThreadClaims2
  PropertiesSize PropertiesMap PropertiesRingMap PropertiesWin PropertiesWinMap PropertiesWinProc.

(** ** A concrete interleaving: thread 1 makes a ring, thread 2 maps file 7,
    thread 3 allocates memory, which the kernel places at the address thread 1
    has just released; thread 1 tries a second place. *)
Definition exw_events : list wevent :=
  [WERing 1 false 70000; WEMap 2 true (opt_offset 5000 mapmut_with_options) 3; WEAlloc 3 true (opt_len (ExtExact 4200) (opt_offset 4100 mapmut_with_options));
   WEGo 1; WEGo 2; WEGo 1; WEGo 1; WEGo 3; WEGo 3; WEGo 1; WEGo 2; WEGo 3; WEGo 2; WEGo 2; WEGo 1; WEGo 2; WEGo 1; WEGo 2; WEGo 1; WEGo 1; WEGo 1].
Definition exw_answers : list answer :=
  [Grant 88; Grant 0; Grant 262144; Grant 0; Grant 89; Grant 262144; Grant 0; Grant 90; Grant 786432; Grant 131072; Grant 0; Grant 0; Grant 0].
Definition exw_s0 (q : list answer) : win := ex_win [] (exw_answers ++ q).
Definition exw_at (n : nat) (q : list answer) : wtsys := snd (wtrun (twin true) (firstn n exw_events) (widle (exw_s0 q))).

Lemma wtrun_reached t s0 h : forall s, wtreached t s0 s -> Forall (wev_ok t) h -> wtreached t s0 (snd (wtrun t h s)).
Proof.
  induction h as [|e h IH]; intros s R F; [exact R|]. apply Forall_cons_iff in F as [He F]. rewrite run_snd. apply IH; [apply wtr_step; assumption|exact F].
Qed.
Ltac wevents_ok := repeat (apply Forall_cons; [cbn -[Z.pow repeat]; unfold options_ok, extent_ok, is_usize, walloc_fits; cbn -[Z.pow repeat];
  change (2 ^ 64) with 18446744073709551616; try lia; auto|]); apply Forall_nil.
Lemma exw_events_ok c : Forall (wev_ok (twin c)) exw_events.
Proof. wevents_ok. Qed.
Lemma Forall_firstn {A} (Q : A -> Prop) n l : Forall Q l -> Forall Q (firstn n l).
Proof. intros F. revert n. induction F; intros [|n]; cbn; auto. Qed.
Lemma exw_at_reached n q : wtreached (twin true) (exw_s0 q) (exw_at n q).
Proof. apply wtrun_reached; [apply wtr_start, exw_fresh|apply Forall_firstn, exw_events_ok]. Qed.
Example exw_results : fst (wtrun (twin true) exw_events (widle (exw_s0 []))) =
  repeat WTNone 11 ++ WTMap (Ret (GThing 0)) :: repeat WTNone 5 ++ WTMap (Ret (GThing 1)) :: [WTNone; WTNone; WTRing (Ret 2)].
Proof. vm_compute. reflexivity. Qed.

(** ** C97: the stages are the calls: if nothing happens in between, a thread
    that begins a call and makes its system calls one by one gets the answer,
    and leaves the state, of the call made as one step (C61-C69, C77-C79). *)
Theorem C97_uninterrupted : forall t s0 s tid c e, good_target t -> wtreached t s0 s -> wt_pool s tid = None -> wpcall_ok t c -> wstart_of tid c = Some e ->
  exists n s', walone t n tid e s = (as_wtresult (fst (wpstep t c (wt_p s))), s') /\ wt_p s' = snd (wpstep t c (wt_p s)) /\
    wt_pool s' tid = None /\ forall i, i <> tid -> wt_pool s' i = wt_pool s i.
Proof. intros t s0 s tid c e Ht. exact (uninterrupted t Ht s0 s tid c e). Qed.
(** Between the first and the second system call of thread 2, while thread 1
    has reserved addresses. *)
Example C97_uninterrupted_case :
  let s := exw_at 6 [] in
  let s := {| wt_p := {| wp_g := g_set (wp_g (wt_p s)) (with_w (g_s (wp_g (wt_p s))) (set_orc (n_w (g_s (wp_g (wt_p s)))) [Grant 91; Grant 786432; Grant 0; Grant 0; Grant 0]));
                         wp_ring := wp_ring (wt_p s) |}; wt_pool := wt_pool s |} in
  wt_pool s 4 = None /\ wt_pool s 1 <> None /\ wt_pool s 2 <> None /\
  fst (walone (twin true) 7 4 (WERing 4 true 5000) s) = WTRing (Ret 0) /\
  fst (wpstep (twin true) (WInf 5000) (wt_p s)) = WNew (Ret 0).
Proof. vm_compute. repeat split; discriminate. Qed.
Print Assumptions C97_uninterrupted.

(** Whatever happens between the system calls of [map_if] and [open_if]: if
    the call answers, then with a map (or none) as its options ask for a file
    of the length that [GetFileInformationByHandle] found. *)
Theorem C97_decided : forall t s0 s tid mut own o fd f h y s3, good_target t -> wtreached t s0 s ->
  wt_pool s tid = Some (VStat mut own o fd) -> w_fd (n_w (g_s (wp_g (wt_p s)))) fd = Some f ->
  Forall (wev_ok t) h -> Forall (fun e => wstarts e <> Some tid) h ->
  let s2 := snd (wtrun t h (snd (wtstep t (WEGo tid) s))) in
  wtstep t (WEGo tid) s2 = (WTMap (Ret y), s3) ->
  let L := final_len (op_truncate o) (op_resize o) (as_usize t (o_size (w_obj (n_w (g_s (wp_g (wt_p s)))) (fd_obj f)))) in
  (out_of_file (op_len o) (op_offset o) L /\ y = (if own then GFile None fd else GNone) /\ wt_p s3 = wt_p s2) \/
  (~ out_of_file (op_len o) (op_offset o) L /\ exists k v, y = (if own then GFile (Some k) fd else GThing k) /\
     g_tab (wp_g (wt_p s2)) k = None /\ g_tab (wp_g (wt_p s3)) k = Some (TMap v) /\
     right_len (op_len o) (op_offset o) L (m_len (v_map v)) /\ v_off v = op_offset o /\ v_prot v = op_protect o /\ v_mut v = mut /\ v_anon v = false).
Proof.
  intros t s0 s tid mut own o fd f h y s3 Ht R. exact (map_thread t Ht s0 s tid mut own o fd f h y s3 (wtreached_ok t Ht s0 s R)).
Qed.
(** The map is of the file its handle stands for when the section is created,
    whatever is closed and opened before and after. *)
Theorem C97_object : forall t s0 s tid mut own o fd flen f h y s3, good_target t -> wtreached t s0 s ->
  wt_pool s tid = Some (VCreate mut own o fd flen) -> w_fd (n_w (g_s (wp_g (wt_p s)))) fd = Some f ->
  Forall (wev_ok t) h -> Forall (fun e => wstarts e <> Some tid) h ->
  let s2 := snd (wtrun t h (snd (wtstep t (WEGo tid) s))) in
  wtstep t (WEGo tid) s2 = (WTMap (Ret y), s3) ->
  exists k v, g_tab (wp_g (wt_p s2)) k = None /\ g_tab (wp_g (wt_p s3)) k = Some (TMap v) /\ (y = GThing k \/ exists fd, y = GFile (Some k) fd) /\ v_obj v = fd_obj f /\
    forall i, 0 <= i < m_len (v_map v) -> in_object (wp_g (wt_p s3)) (TMap v) i ->
      exists b, reading t (wp_g (wt_p s3)) k i = Ret (GByte b) /\
        (win_shares (v_prot v) = true -> b = o_data (w_obj (n_w (g_s (wp_g (wt_p s3)))) (fd_obj f)) (v_off v + i)).
Proof.
  intros t s0 s tid mut own o fd flen f h y s3 Ht R. exact (map_object t Ht s0 s tid mut own o fd flen f h y s3 (wtreached_ok t Ht s0 s R)).
Qed.
(** [alloc]: a map of the length asked for, of zeros. *)
Theorem C97_alloc : forall t s0 s tid mut o h y s3, good_target t -> wtreached t s0 s ->
  options_ok t o -> walloc_fits t o \/ t_checks t = true -> wt_pool s tid = None ->
  Forall (wev_ok t) h -> Forall (fun e => wstarts e <> Some tid) h ->
  let s2 := snd (wtrun t h (snd (wtstep t (WEAlloc tid mut o) s))) in
  wtstep t (WEGo tid) s2 = (WTMap (Ret y), s3) ->
  walloc_fits t o /\ exists k v, y = GThing k /\ g_tab (wp_g (wt_p s2)) k = None /\ g_tab (wp_g (wt_p s3)) k = Some (TMap v) /\
    walloc_len t o (m_len (v_map v)) /\ (0 < m_len (v_map v) -> m_ptr (v_map v) mod t_page t = op_offset o mod t_page t) /\
    v_prot v = op_protect o /\ v_mut v = mut /\ v_anon v = true /\
    forall i, 0 <= i < m_len (v_map v) -> exists b, reading t (wp_g (wt_p s3)) k i = Ret (GByte b) /\ (win_shares (op_protect o) = true -> b = 0).
Proof.
  intros t s0 s tid mut o h y s3 Ht R Oo Fit. exact (alloc_thread t Ht s0 s tid mut o h y s3 (wtreached_ok t Ht s0 s R) (conj Oo Fit)).
Qed.
Example C97_decided_case :
  let s := exw_at 4 [] in let s2 := exw_at 17 [] in
  wtreached (twin true) (exw_s0 []) s /\
  wt_pool s 2 = Some (VStat true false (opt_offset 5000 mapmut_with_options) 3) /\ w_fd (n_w (g_s (wp_g (wt_p s)))) 3 = Some {| fd_obj := 1; fd_w := true |} /\
  o_size (w_obj (n_w (g_s (wp_g (wt_p s)))) 1) = 10000 /\
  Forall (fun e => wstarts e <> Some 2) (firstn 12 (skipn 5 exw_events)) /\
  fst (wtstep (twin true) (WEGo 2) s2) = WTMap (Ret (GThing 1)) /\
  option_map (fun x => match x with TMap v => (m_len (v_map v), v_obj v) | TRing _ _ => (0, 0) end) (g_tab (wp_g (wt_p (exw_at 18 []))) 1) = Some (5000, 1).
Proof.
  cbv zeta. split; [apply exw_at_reached|]. split; [vm_compute; reflexivity|]. split; [vm_compute; reflexivity|]. split; [vm_compute; reflexivity|].
  split; [repeat (apply Forall_cons; [discriminate|]); apply Forall_nil|]. split; vm_compute; reflexivity.
Qed.
Example C97_object_case :
  wt_pool (exw_at 13 []) 2 = Some (VCreate true false (opt_offset 5000 mapmut_with_options) 3 10000) /\
  map (reading (twin true) (wp_g (wt_p (exw_at 18 []))) 1) [0; 4999] =
    map (fun i => Ret (GByte (o_data (w_obj (n_w (g_s (wp_g (wt_p (exw_at 18 []))))) 1) (5000 + i)))) [0; 4999].
Proof. vm_compute. auto. Qed.
Example C97_alloc_case :
  wt_pool (exw_at 2 []) 3 = None /\ fst (wtstep (twin true) (WEGo 3) (exw_at 11 [])) = WTMap (Ret (GThing 0)) /\
  map (reading (twin true) (wp_g (wt_p (exw_at 12 []))) 0) [0; 4199; 4200] = [Ret (GByte 0); Ret (GByte 0); Panic].
Proof. vm_compute. auto. Qed.
Print Assumptions C97_decided.
Print Assumptions C97_object.
Print Assumptions C97_alloc.

(** The call is over after at most so many system calls of its own, whatever
    happens in between: 8 for a map, 32 for a ring (six placements), 2 for the
    drop of a ring. *)
Theorem C97_ends : forall t s tid pd h, wt_pool s tid = Some pd -> Forall (fun e => wstarts e <> Some tid) h -> (wsteps_left pd <= wown_steps tid h)%nat ->
  wt_pool (snd (wtrun t h s)) tid = None.
Proof. intros t s tid pd h Hp F L. apply ends_within; [exact F|]. intros pd' Hp'. rewrite Hp in Hp'. injection Hp' as <-. exact L. Qed.
(** Thread 1 makes a ring and loses all six places, though the kernel grants
    every request. *)
Definition exw_loses : list wevent := WERing 1 false 70000 :: WEGo 1 ::
  flat_map (fun i => [WEGo 1; WEGo 1; WEAlloc i true (opt_len (ExtExact 4200) mapmut_with_options); WEGo i; WEGo i; WEGo i; WEGo 1]) [2; 3; 4; 5; 6; 7] ++ [WEGo 1].
Definition exw_loses_answers : list answer :=
  Grant 88 :: flat_map (fun a => [Grant a; Grant 0; Grant 89; Grant a; Grant 0]) [262144; 524288; 1048576; 2097152; 4194304; 8388608].
Definition granted (a : answer) : Prop := exists v, a = Grant v.
Lemma exw_loses_ok c : Forall (wev_ok (twin c)) exw_loses.
Proof. wevents_ok. Qed.
Example C97_ends_case :
  option_map wsteps_left (wt_pool (exw_at 3 []) 1) = Some 32%nat /\ option_map wsteps_left (wt_pool (exw_at 3 []) 2) = Some 7%nat /\
  wown_steps 2 (skipn 3 exw_events ++ [WEGo 2]) = 7%nat /\ Forall (fun e => wstarts e <> Some 2) (skipn 3 exw_events ++ [WEGo 2]) /\ wt_pool (exw_at 18 []) 2 = None.
Proof.
  split; [vm_compute; reflexivity|]. split; [vm_compute; reflexivity|]. split; [vm_compute; reflexivity|].
  split; [repeat (apply Forall_cons; [discriminate|]); apply Forall_nil|vm_compute; reflexivity].
Qed.
(** [Ring::new] can fail to place a ring although the kernel grants whatever
    it is asked for: the six tries of src/os/windows.rs:169-177 can all be lost
    to other threads. *)
Theorem C97_placed_refuted :
  ~ (forall t s0 s tid e s', good_target t -> wtreached t s0 s -> Forall granted (w_orc (n_w s0)) ->
       wtstep t (WEGo tid) s = (WTRing (Err e), s') -> e_op e <> RingPrimary).
Proof.
  intros H. set (h := firstn 44 exw_loses). set (s := snd (wtrun (twin true) h (widle (ex_win [] exw_loses_answers)))).
  assert (R : wtreached (twin true) (ex_win [] exw_loses_answers) s).
  { apply wtrun_reached; [apply wtr_start, exw_fresh|apply Forall_firstn, exw_loses_ok]. }
  assert (A : Forall granted (w_orc (n_w (ex_win [] exw_loses_answers)))) by (cbn; repeat (apply Forall_cons; [eexists; reflexivity|]); apply Forall_nil).
  assert (E : fst (wtstep (twin true) (WEGo 1) s) = WTRing (Err {| e_repr := RSystem (SysOs 487); e_op := RingPrimary |})) by (vm_compute; reflexivity).
  destruct (wtstep (twin true) (WEGo 1) s) as [x s'] eqn:Es. cbn [fst] in E. rewrite E in Es. exact (H _ _ _ _ _ _ (twin_good true) R A Es eq_refl).
Qed.
Print Assumptions C97_ends.
Print Assumptions C97_placed_refuted.

(** ** C98: calls in progress do not touch each other's memory, nor that of
    the maps and rings there are.  No address belongs to two of them, and each
    is in the page table: reserved, or mapped. *)
Theorem C98_apart : forall t s0 s x y a, good_target t -> wtreached t s0 s -> x <> y -> woccupies t s x a -> woccupies t s y a -> False.
Proof. intros t s0 s x y a Ht R. exact (wtok_apart t Ht s0 s x y a (wtreached_ok t Ht s0 s R)). Qed.
Theorem C98_mapped : forall t s0 s x a, good_target t -> wtreached t s0 s -> woccupies t s x a -> w_vm (n_w (g_s (wp_g (wt_p s)))) (a / t_page t) <> None.
Proof. intros t s0 s x a Ht R. exact (wtok_mapped t Ht s0 s x a (wtreached_ok t Ht s0 s R)). Qed.
(** The bytes of rings and anonymous maps change by calls on themselves only,
    also while other rings and maps are being made and dropped. *)
Theorem C98_kept : forall t s0 s h k x, good_target t -> wtreached t s0 s -> Forall (wev_ok t) h -> Forall (fun e => ~ we_touches e k) h ->
  g_tab (wp_g (wt_p s)) k = Some x -> private_thing x = true ->
  let g' := wp_g (wt_p (snd (wtrun t h s))) in
  exists x', g_tab g' k = Some x' /\ same_thing x x' /\ forall i, reading t g' k i = reading t (wp_g (wt_p s)) k i.
Proof. intros t s0 s h k x Ht R. exact (kept_events t Ht s0 h s k x (wtreached_ok t Ht s0 s R)). Qed.
(** Every open section handle is one that was open at the start, or belongs to
    exactly one call in progress: none is lost, none is closed twice. *)
Theorem C98_handles : forall t s0 s h, good_target t -> wtreached t s0 s ->
  (exists tid pd, wt_pool s tid = Some pd /\ wpd_handle pd = Some h /\ n_sec s0 h = None /\ n_sec (g_s (wp_g (wt_p s))) h <> None /\
     forall i pe, wt_pool s i = Some pe -> wpd_handle pe = Some h -> i = tid) \/
  ((forall tid pd, wt_pool s tid = Some pd -> wpd_handle pd <> Some h) /\ n_sec (g_s (wp_g (wt_p s))) h = n_sec s0 h).
Proof. intros t s0 s h Ht R. exact (wtok_handles t s0 s h (wtreached_ok t Ht s0 s R)). Qed.
Theorem C98_handles_closed : forall t s0 s, good_target t -> wtreached t s0 s -> (forall tid, wt_pool s tid = None) ->
  forall h, n_sec (g_s (wp_g (wt_p s))) h = n_sec s0 h.
Proof.
  intros t s0 s Ht R N h. destruct (wtok_handles t s0 s h (wtreached_ok t Ht s0 s R)) as [(tid & pd & Hp & _)|[_ E]]; [|exact E]. rewrite N in Hp. discriminate Hp.
Qed.
Example C98_case :
  wtreached (twin true) (exw_s0 []) (exw_at 16 []) /\
  woccupies (twin true) (exw_at 16 []) (WThread 1) 786432 /\ woccupies (twin true) (exw_at 16 []) (WThread 1) 1048575 /\
  woccupies (twin true) (exw_at 16 []) (WThread 2) 136072 /\ woccupies (twin true) (exw_at 16 []) (WThing 0) 262148.
Proof.
  split; [apply exw_at_reached|].
  split; [eexists; split; [vm_compute; reflexivity|vm_compute; intuition discriminate]|].
  split; [eexists; split; [vm_compute; reflexivity|vm_compute; intuition discriminate]|].
  split; [eexists; split; [vm_compute; reflexivity|vm_compute; intuition discriminate]|].
  eexists; split; [vm_compute; reflexivity|vm_compute; intuition discriminate].
Qed.
Example C98_handles_case :
  map (fun i => match wt_pool (exw_at 16 []) i with Some pd => wpd_handle pd | None => None end) [1; 2; 3] = [Some 88; Some 90; None] /\
  map (fun h => match n_sec (g_s (wp_g (wt_p (exw_at 16 [])))) h with Some _ => true | None => false end) [88; 89; 90] = [true; false; true] /\
  map (wt_pool (exw_at 21 [])) [1; 2; 3] = [None; None; None] /\
  map (fun h => match n_sec (g_s (wp_g (wt_p (exw_at 21 [])))) h with Some _ => true | None => false end) [88; 89; 90] = [false; false; false].
Proof. vm_compute. auto. Qed.
Print Assumptions C98_apart.
Print Assumptions C98_mapped.
Print Assumptions C98_kept.
Print Assumptions C98_handles.
Print Assumptions C98_handles_closed.

(** A ring that was made between other calls answers like a queue that was
    empty when it was made, whatever is made, used and dropped between its
    calls.  Partial: the history is bounded as in C01. *)
Theorem C98_ring_partial : forall t s0 s tid hint h k s3 h' xs s4, good_target t -> wtreached t s0 s -> is_usize t hint -> wt_pool s tid = None ->
  Forall (wev_ok t) h -> Forall (fun e => wstarts e <> Some tid) h ->
  wtstep t (WEGo tid) (snd (wtrun t h (snd (wtstep t (WERing tid false hint) s)))) = (WTRing (Ret k), s3) ->
  Forall (wev_ok t) h' -> wtrun t h' s3 = (xs, s4) ->
  exists cap, is_ceil (t_alloc t) hint cap /\
    (history_ok t 0 cap (wcalls_on k (wecalls h')) ->
     q_answers {| q_data := []; q_free := zeros cap |} (wcalls_on k (wecalls h')) (wanswers_on k (wecalls h') (weresults h' xs))).
Proof.
  intros t s0 s tid hint h k s3 h' xs s4 Ht R. exact (ring_thread t Ht s0 s tid hint h k s3 h' xs s4 (wtreached_ok t Ht s0 s R)).
Qed.
Lemma wecalls_ok t h : Forall (wev_ok t) h -> Forall (wpcall_ok t) (wecalls h).
Proof. induction 1 as [|e h He H IH]; [constructor|]. destruct e; cbn [wecalls]; auto; constructor; try exact IH; try exact Logic.I; try exact He; exact (proj1 He). Qed.
Theorem C98_ring_64bit : forall t s0 s tid hint h k s3 h' xs s4, good_target t -> t_bits t = 64 -> wtreached t s0 s -> is_usize t hint -> wt_pool s tid = None ->
  Forall (wev_ok t) h -> Forall (fun e => wstarts e <> Some tid) h ->
  wtstep t (WEGo tid) (snd (wtrun t h (snd (wtstep t (WERing tid false hint) s)))) = (WTRing (Ret k), s3) ->
  Forall (wev_ok t) h' -> wtrun t h' s3 = (xs, s4) ->
  exists cap, is_ceil (t_alloc t) hint cap /\
    (rops_weight cap (wcalls_on k (wecalls h')) < 2 ^ 64 ->
     q_answers {| q_data := []; q_free := zeros cap |} (wcalls_on k (wecalls h')) (wanswers_on k (wecalls h') (weresults h' xs))).
Proof.
  intros t s0 s tid hint h k s3 h' xs s4 Ht H64 R Hh N0 Fo F E Fo' Er.
  destruct (ring_thread t Ht s0 s tid hint h k s3 h' xs s4 (wtreached_ok t Ht s0 s R) Hh N0 Fo F E Fo' Er) as (cap & IC & K). exists cap. split; [exact IC|].
  intros Hw. apply K. apply history_ok_sum; [destruct IC as (_ & ? & _), Hh; lia|lia|apply wcalls_ok, wecalls_ok, Fo'|]. apply pos_ok_64; [exact H64|lia].
Qed.
Theorem C98_infinite_partial : forall t s0 s tid hint h k s3 h' xs s4, good_target t -> wtreached t s0 s -> is_usize t hint -> wt_pool s tid = None ->
  Forall (wev_ok t) h -> Forall (fun e => wstarts e <> Some tid) h ->
  wtstep t (WEGo tid) (snd (wtrun t h (snd (wtstep t (WERing tid true hint) s)))) = (WTRing (Ret k), s3) ->
  Forall (wev_ok t) h' -> wtrun t h' s3 = (xs, s4) ->
  exists cap, is_ceil (t_alloc t) hint cap /\
    (ihistory_ok t 0 cap (wicalls_on k (wecalls h')) ->
     lq_answers {| lq_tape := zeros cap; lq_len := 0 |} (wicalls_on k (wecalls h')) (wanswers_on k (wecalls h') (weresults h' xs))).
Proof.
  intros t s0 s tid hint h k s3 h' xs s4 Ht R. exact (inf_thread t Ht s0 s tid hint h k s3 h' xs s4 (wtreached_ok t Ht s0 s R)).
Qed.
(** Ring 2 is used while thread 1 makes an [InfiniteRing] (3) and thread 2
    drops the map of the file, then the ring 3. *)
Definition exw_use : list wevent :=
  [WECall (WCall 2 (RWriteAll [1; 2; 3])); WERing 1 true 5000; WEGo 1; WEGo 1; WECall (WCall 2 (RRead 2)); WEGo 1; WECall (WAct (ADrop 1)); WEGo 1; WEGo 1;
   WECall (WCall 2 (RWrite [4])); WEGo 1; WECall (WICall 3 (IWrite [7; 8])); WECall (WCall 2 (RRead 5)); WECall (WICall 3 (IRead 4)); WEDrop 2 3;
   WECall (WCall 2 (RWrite [5])); WEGo 2; WECall (WCall 2 (RRead 1)); WEGo 2].
Definition exw_use_answers : list answer := [Grant 91; Grant 2097152; Grant 0; Grant 0; Grant 0; Grant 0; Grant 0; Grant 0].
Lemma exw_use_ok c : Forall (wev_ok (twin c)) exw_use.
Proof. wevents_ok. Qed.
Definition exw_made : wtresult * wtsys :=
  wtstep (twin true) (WEGo 1) (snd (wtrun (twin true) (firstn 19 (skipn 1 exw_events)) (snd (wtstep (twin true) (WERing 1 false 70000) (widle (exw_s0 exw_use_answers)))))).
Definition exw_used : list wtresult := fst (wtrun (twin true) exw_use (snd exw_made)).
Example C98_ring_case_alone : Forall (fun e => wstarts e <> Some 1) (firstn 19 (skipn 1 exw_events)).
Proof. repeat (apply Forall_cons; [discriminate|]). apply Forall_nil. Qed.
Example C98_ring_case_made : fst exw_made = WTRing (Ret 2).
Proof. vm_compute. reflexivity. Qed.
Example C98_ring_case :
  (wcalls_on 2 (wecalls exw_use), wanswers_on 2 (wecalls exw_use) (weresults exw_use exw_used)) =
  ([RWriteAll [1; 2; 3]; RRead 2; RWrite [4]; RRead 5; RWrite [5]; RRead 1],
   [Ret OUnit; Ret (OBytes [1; 2]); Ret (OCount 1); Ret (OBytes [3; 4]); Ret (OCount 1); Ret (OBytes [5])]).
Proof. vm_compute. reflexivity. Qed.
Example C98_infinite_case :
  (wicalls_on 3 (wecalls exw_use), wanswers_on 3 (wecalls exw_use) (weresults exw_use exw_used)) =
  ([IWrite [7; 8]; IRead 4], [Ret (OCount 2); Ret (OBytes [7; 8])]).
Proof. vm_compute. reflexivity. Qed.
Print Assumptions C98_ring_partial.
Print Assumptions C98_ring_64bit.
Print Assumptions C98_infinite_partial.
