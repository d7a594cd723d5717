(** Property theorems C77-C79: programs that use maps and rings together on
    Windows.

    [wpreached t p]: [p] is the state after any history of calls on any number
    of maps and rings, from any machine on which nothing is mapped, against any
    sequence of kernel answers and any behaviour of other threads.  The code of
    the rings loads from and stores to the kernel's memory at the addresses it
    computes. *)
From Coq Require Import Lia.
From Verif Require Import Base Spec ErrorModel RingSpec RingModel RingTheorems RingClaims OsModel MapModel MapSpec RingMapModel RingMapSpec OsProofs MemRingModel
  ProcModel ProcSpec WinModel WinSpec WinMapModel WinMapSpec WinSpace WinThings WinHist WinMapClaims WinProcModel WinProcSpec WinProcProofs WinProcClaims
  PropertiesSize PropertiesMap PropertiesRingMap PropertiesWin PropertiesWinMap.

(** ** A concrete program: file 7 is mapped for writing (thing 0), thing 1 is an
    anonymous map, thing 2 a [Ring], thing 3 an [InfiniteRing]. *)
Definition exp_before : list wpcall :=
  [WAct (AMap true (opt_offset 5000 mapmut_with_options) 3); WAct (AAlloc true (opt_len (ExtExact 4200) (opt_offset 4100 mapmut_with_options)))].
Definition exp_after : list wpcall :=
  [WCall 2 (RWriteAll [1; 2; 3]); WAct (ASet 0 0 9); WAct (ASet 2 0 9); WInf 5000; WICall 3 (IWrite [7; 8]); WCall 2 (RRead 2); WAct (AClose 3);
   WCall 2 (RFeed 131070); WCall 2 (RWrite [6; 6; 6; 6; 6]); WAct (ADrop 0); WAct (ADrop 2); WCall 2 (RRead 3); WICall 3 (IRead 9); WICall 2 (IRead 9);
   WCall 2 (RPut [4; 4; 4; 4]); WDrop 3; WCall 2 (RPeek 2)].
Definition exp_answers : list answer :=
  [Grant 0; Grant 88; Grant 131072; Grant 88; Grant 65536; Grant 88; Grant 262144; Grant 0; Grant 0; Grant 0;
   Grant 88; Grant 786432; Grant 0; Grant 0; Grant 0; Grant 0; Grant 0; Grant 0].
Definition exp_start (rest : list answer) : wproc := wp_fresh (ex_win [] (exp_answers ++ rest)).

Lemma wprun_reached t h : forall p, wpreached t p -> Forall (wpcall_ok t) h -> wpreached t (snd (wprun t h p)).
Proof.
  induction h as [|c h IH]; cbn [wprun]; intros p R F; [exact R|]. inversion F; subst.
  pose proof (IH _ (wpr_step _ _ _ R H1) H2) as K. destruct (wpstep t c p) as [x p1]. cbn [snd] in K. destruct (wprun t h p1) as [xs p2]. exact K.
Qed.
Ltac wcalls_ok := repeat (apply Forall_cons; [cbn -[Z.pow repeat]; unfold options_ok, extent_ok, is_usize, walloc_fits; cbn -[Z.pow repeat];
  change (2 ^ 64) with 18446744073709551616; try lia|]); apply Forall_nil.
Lemma exp_before_ok c : Forall (wpcall_ok (twin c)) exp_before.
Proof. wcalls_ok. Qed.
Lemma exp_after_ok c : Forall (wpcall_ok (twin c)) exp_after.
Proof. wcalls_ok. Qed.

(** ** C77: every ring made in any program answers like a queue that was empty
    when it was made, whatever is done to maps, files and other rings between
    its calls and whatever the kernel answers. *)
Theorem C77_ring_partial : forall t p hint k p1 h xs p2, good_target t -> wpreached t p -> is_usize t hint ->
  wpstep t (WRing hint) p = (WNew (Ret k), p1) -> Forall (wpcall_ok t) h -> wprun t h p1 = (xs, p2) ->
  exists cap, is_ceil (t_alloc t) hint cap /\
    (history_ok t 0 cap (wcalls_on k h) ->
     q_answers {| q_data := []; q_free := zeros cap |} (wcalls_on k h) (wanswers_on k h xs)).
Proof. intros t p hint k p1 h xs p2 Ht. exact (wring_end_to_end t Ht p hint k p1 h xs p2). Qed.
(** On 64-bit targets, up to 2^64 bytes through the ring. *)
Lemma wcalls_ok k h t : Forall (wpcall_ok t) h -> Forall (rop_ok t) (wcalls_on k h).
Proof.
  induction 1 as [|c h Hc H IH]; [constructor|]. destruct c as [a|hint|hint|k2 c|k2 c|k2]; cbn [wcalls_on]; try exact IH.
  - destruct (k2 =? k); [constructor; assumption|exact IH].
  - destruct (k2 =? k); [constructor|exact IH].
Qed.
Theorem C77_ring_64bit : forall t p hint k p1 h xs p2, good_target t -> t_bits t = 64 -> wpreached t p -> is_usize t hint ->
  wpstep t (WRing hint) p = (WNew (Ret k), p1) -> Forall (wpcall_ok t) h -> wprun t h p1 = (xs, p2) ->
  exists cap, is_ceil (t_alloc t) hint cap /\
    (rops_weight cap (wcalls_on k h) < 2 ^ 64 ->
     q_answers {| q_data := []; q_free := zeros cap |} (wcalls_on k h) (wanswers_on k h xs)).
Proof.
  intros t p hint k p1 h xs p2 Ht H64 R Hh E F Er.
  destruct (wring_end_to_end t Ht p hint k p1 h xs p2 R Hh E F Er) as (cap & IC & K). exists cap. split; [exact IC|].
  intros Hw. apply K. apply history_ok_sum; [destruct IC as (_ & ? & _), Hh; lia|lia|apply wcalls_ok, F|]. apply pos_ok_64; [exact H64|lia].
Qed.
Theorem C77_infinite_partial : forall t p hint k p1 h xs p2, good_target t -> wpreached t p -> is_usize t hint ->
  wpstep t (WInf hint) p = (WNew (Ret k), p1) -> Forall (wpcall_ok t) h -> wprun t h p1 = (xs, p2) ->
  exists cap, is_ceil (t_alloc t) hint cap /\
    (ihistory_ok t 0 cap (wicalls_on k h) ->
     lq_answers {| lq_tape := zeros cap; lq_len := 0 |} (wicalls_on k h) (wanswers_on k h xs)).
Proof. intros t p hint k p1 h xs p2 Ht. exact (winf_end_to_end t Ht p hint k p1 h xs p2). Qed.
Example C77_case :
  let p := snd (wprun (twin true) exp_before (exp_start [])) in
  wpreached (twin true) p /\
  fst (wpstep (twin true) (WRing 70000) p) = WNew (Ret 2) /\
  let '(xs, p2) := wprun (twin true) exp_after (snd (wpstep (twin true) (WRing 70000) p)) in
  wcalls_on 2 exp_after = [RWriteAll [1; 2; 3]; RRead 2; RFeed 131070; RWrite [6; 6; 6; 6; 6]; RRead 3; RPut [4; 4; 4; 4]; RPeek 2] /\
  wanswers_on 2 exp_after xs = [Ret OUnit; Ret (OBytes [1; 2]); Ret OUnit; Ret (OCount 1); Ret (OBytes [3; 0; 0]); Panic; Ret (OBytes [0; 0])] /\
  wanswers_on 3 exp_after xs = [Ret (OCount 2); Ret (OBytes [7; 8])] /\
  rops_weight 131072 (wcalls_on 2 exp_after) < 2 ^ 64.
Proof.
  cbv zeta. split; [|vm_compute; auto 10]. apply wprun_reached; [apply wpr_start, exw_fresh|apply exp_before_ok].
Qed.
Print Assumptions C77_ring_partial.
Print Assumptions C77_ring_64bit.
Print Assumptions C77_infinite_partial.

(** ** C78: maps and rings do not interfere.  A program with rings is, for its
    maps, one of the histories of C66-C73: all of these hold of it. *)
Theorem C78_histories : forall t p, good_target t -> wpreached t p -> reached_win t any (wp_g p).
Proof.
  intros t p Ht R. destruct (wp_history t Ht p R) as (s & hs & Fs & F & E). exists s, hs. split; [exact Fs|]. split; [|exact E].
  refine (Forall_impl _ _ F). unfold any. tauto.
Qed.
(** The bytes of rings and anonymous maps change only by calls on themselves. *)
Theorem C78_isolation : forall t c p k x, good_target t -> wpreached t p -> wpcall_ok t c -> g_tab (wp_g p) k = Some x -> private_thing x = true ->
  ~ wp_touches c k ->
  let g' := wp_g (snd (wpstep t c p)) in
  exists x', g_tab g' k = Some x' /\ same_thing x x' /\ forall i, reading t g' k i = reading t (wp_g p) k i.
Proof. intros t c p k x Ht. exact (wp_isolation t Ht c p k x). Qed.
(** A ring, its value and its bytes, changes only by calls on rings. *)
Theorem C78_ring_kept : forall t c p k h, good_target t -> wpreached t p -> wpcall_ok t c -> wp_ring p k = Some h -> wp_subject c <> Some k ->
  let p' := snd (wpstep t c p) in
  wp_ring p' k = Some h /\ forall i, reading t (wp_g p') k i = reading t (wp_g p) k i.
Proof. intros t c p k h Ht. exact (wp_rings_kept t Ht c p k h). Qed.
(** A call on a ring returns or panics; none of its loads and stores faults. *)
Theorem C78_no_fault : forall t c p r p', good_target t -> wpreached t p -> wpcall_ok t c -> wpstep t c p = (WAns r, p') ->
  r = Panic \/ exists y, r = Ret y.
Proof. intros t c p r p' Ht R Hc E. exact (proj1 (wp_call_spec t Ht c p r p' R Hc E)). Qed.
(** It changes nothing that can be read through another thing, no file, no
    descriptor and nothing in the address space, and calls no system function. *)
Theorem C78_local : forall t c p r p', good_target t -> wpreached t p -> wpcall_ok t c -> wpstep t c p = (WAns r, p') ->
  exists k, wp_subject c = Some k /\
  (forall j, g_tab (wp_g p') j = g_tab (wp_g p) j) /\
  (forall j i, j <> k -> reading t (wp_g p') j i = reading t (wp_g p) j i) /\
  (forall o, named (n_w (g_s (wp_g p))) o -> w_obj (n_w (g_s (wp_g p'))) o = w_obj (n_w (g_s (wp_g p))) o) /\
  (forall fd, w_fd (n_w (g_s (wp_g p'))) fd = w_fd (n_w (g_s (wp_g p))) fd) /\
  (forall path, w_fs (n_w (g_s (wp_g p'))) path = w_fs (n_w (g_s (wp_g p))) path) /\
  same_space (g_s (wp_g p)) (g_s (wp_g p')) /\ calls (g_s (wp_g p)) (g_s (wp_g p')) [].
Proof. intros t c p r p' Ht. exact (wp_local t Ht c p r p'). Qed.
Example C78_case :
  let p := snd (wprun (twin true) (exp_before ++ WRing 70000 :: firstn 6 exp_after) (exp_start [])) in
  wpreached (twin true) p /\
  map (fun x => reading (twin true) (wp_g p) (fst x) (snd x)) [(0, 0); (1, 0); (2, 2); (2, 131074); (3, 1); (3, 65537)] =
    [Ret (GByte 9); Ret (GByte 0); Ret (GByte 3); Ret (GByte 3); Ret (GByte 8); Ret (GByte 8)] /\
  match wpstep (twin true) (WCall 2 (RWrite [4])) p with
  | (WAns (Ret (OCount 1)), p') =>
    map (fun x => reading (twin true) (wp_g p') (fst x) (snd x)) [(0, 0); (1, 0); (2, 3); (2, 131075); (3, 1)] =
      [Ret (GByte 9); Ret (GByte 0); Ret (GByte 4); Ret (GByte 4); Ret (GByte 8)]
  | _ => False
  end.
Proof.
  cbv zeta. split; [|vm_compute; auto]. apply wprun_reached; [apply wpr_start, exw_fresh|]. apply Forall_app. split; [apply exp_before_ok|].
  wcalls_ok.
Qed.
Print Assumptions C78_histories.
Print Assumptions C78_isolation.
Print Assumptions C78_ring_kept.
Print Assumptions C78_no_fault.
Print Assumptions C78_local.

(** ** C79: nothing is left behind.  [wptidily t s p]: [p] is reached from [s] by
    calls in which the kernel refused no release, and no map of no bytes was
    dropped (C66_empty_refuted: needed).  Then there are exactly the views and
    pages of the maps and rings still held, and none if all are dropped. *)
Theorem C79_exact_partial : forall t s p, good_target t -> wptidily t s p ->
  (forall a, n_view (g_s (wp_g p)) a <> None <-> exists k x, g_tab (wp_g p) k = Some x /\ bases_of t x a) /\
  (forall pg, w_vm (n_w (g_s (wp_g p))) pg <> None <-> exists a n, n_view (g_s (wp_g p)) a = Some n /\ in_view t a n pg) /\
  same_kernel s (g_s (wp_g p)).
Proof.
  intros t s p Ht Td. destruct (wp_tidy_history t Ht s p Td) as (_ & Fs & hs & Th & ->). exact (tidy_exact t Ht s hs Fs Th).
Qed.
Theorem C79_all_dropped_partial : forall t s p, good_target t -> wptidily t s p -> (forall k, g_tab (wp_g p) k = None) ->
  (forall pg, w_vm (n_w (g_s (wp_g p))) pg = None) /\ (forall a, n_view (g_s (wp_g p)) a = None) /\ same_kernel s (g_s (wp_g p)).
Proof.
  intros t s p Ht Td. destruct (wp_tidy_history t Ht s p Td) as (_ & Fs & hs & Th & ->). exact (C68_all_dropped_partial t s hs Ht Fs Th).
Qed.
(** A decidable form of [wptidily], for the example. *)
Fixpoint wtidyb (t : target) (h : list wpcall) (p : wproc) : bool :=
  match h with
  | [] => true
  | c :: h => let p' := snd (wpstep t c p) in
      releasedb (g_s (wp_g p)) (g_s (wp_g p')) && match c with WAct a => filledb a (wp_g p) | _ => true end && wtidyb t h p'
  end.
Lemma releasedb_ok s s' : releasedb s s' = true -> released s s'.
Proof.
  intros Hr. unfold releasedb in Hr. apply andb_true_iff in Hr as [H1 H2]. set (l := firstn _ _) in *. exists l.
  split; [unfold calls; destruct (list_eq_dec wc_eq (n_log s') (l ++ n_log s)); [assumption|discriminate]|].
  intros (x & Hx). unfold no_release_failed in H2. rewrite forallb_forall in H2. destruct Hx as [Hx|Hx]; specialize (H2 _ Hx); discriminate.
Qed.
Lemma wtidyb_ok t s h : forall p, wptidily t s p -> Forall (wpcall_ok t) h -> wtidyb t h p = true -> wptidily t s (snd (wprun t h p)).
Proof.
  induction h as [|c h IH]; intros p R F H; [exact R|]. inversion F as [|? ? Fc Fh]; subst. cbn [wtidyb wprun] in *.
  apply andb_true_iff in H as [H Hn]. apply andb_true_iff in H as [Hr Hf].
  assert (K : wptidily t s (snd (wpstep t c p))).
  { apply wpt_step; [exact R|exact Fc|]. split; [exact (releasedb_ok _ _ Hr)|]. destruct c as [a|hint|hint|k o|k o|k]; try exact I.
    intros k v -> Hk. cbn in Hf. rewrite Hk in Hf. apply Z.ltb_lt, Hf. }
  specialize (IH _ K Fh Hn). destruct (wpstep t c p) as [x p1]. cbn [snd] in IH. destruct (wprun t h p1) as [xs p2]. exact IH.
Qed.
Example C79_case :
  let s := ex_win [] (exp_answers ++ [Grant 0; Grant 0; Grant 0]) in
  let p := snd (wprun (twin true) (exp_before ++ WRing 70000 :: exp_after ++ [WDrop 2; WAct (ADrop 1)]) (wp_fresh s)) in
  wptidily (twin true) s p /\ (forall k, g_tab (wp_g p) k = None) /\
  wptidily (twin true) s (snd (wprun (twin true) (exp_before ++ WRing 70000 :: exp_after) (wp_fresh s))) /\
  n_view (g_s (wp_g (snd (wprun (twin true) (exp_before ++ WRing 70000 :: exp_after) (wp_fresh s))))) 262144 = Some 32.
Proof.
  cbv zeta. assert (F : Forall (wpcall_ok (twin true)) (exp_before ++ WRing 70000 :: exp_after)).
  { apply Forall_app. split; [apply exp_before_ok|]. constructor; [vm_compute; intuition discriminate|apply exp_after_ok]. }
  split; [|split; [|split]].
  - apply wtidyb_ok; [apply wpt_start, exw_fresh| |vm_compute; reflexivity].
    rewrite app_comm_cons, app_assoc. apply Forall_app. split; [exact F|wcalls_ok].
  - intros k. vm_compute. repeat match goal with |- (if ?b then _ else _) = _ => destruct b; [reflexivity|] end; destruct k; reflexivity.
  - apply wtidyb_ok; [apply wpt_start, exw_fresh|exact F|vm_compute; reflexivity].
  - vm_compute. reflexivity.
Qed.
Print Assumptions C79_exact_partial.
Print Assumptions C79_all_dropped_partial.
