(** Property theorems C74-C76: programs that use maps and rings together
    (POSIX).

    [preached t plat p]: [p] is the state after any history of calls on any
    number of maps and rings, from any well-formed kernel state, against any
    sequence of kernel answers.  The code of the rings loads from and stores
    to the kernel's memory at the addresses it computes. *)
From Coq Require Import Lia.
From Verif Require Import Base Spec ErrorModel RingSpec RingModel RingTheorems RingClaims OsModel MapModel MapSpec ApiModel ApiSpec
  RingMapModel RingMapSpec OsProofs MemRingModel ProcModel ProcSpec ProcProofs ProcClaims ProcPages
  PropertiesSize PropertiesMap PropertiesRingMap.

(** ** A concrete program: file 7 is mapped (map 0); ring 0 is a [Ring], ring 1
    an [InfiniteRing]. *)
Definition ex_mixed : list pcall :=
  [PMap (COpen true mapmut_with_options 7); PRing 100 epoch; PCall 0 (RWriteAll [1; 2; 3]); PMap (CSet 0 0 9);
   PInf 5000 epoch; PICall 1 (IWrite [7; 8]); PCall 0 (RRead 2); PMap (CLockRange 0 10 20)].
Definition ex_mixed_answers : list answer :=
  [Grant 3; Grant 0; Grant 65536] ++ grants 4 0 131072 0 0 ++ grants 4 0 262144 0 0 ++ [Grant 0].
Definition ex_tail : list pcall :=
  [PCall 0 (RPut (repeat 5 4093)); PCall 0 (RWrite [6; 6; 6; 6; 6]); PMap (CDrop 0); PCall 0 (RRead 3); PICall 1 (IRead 9);
   PICall 0 (IRead 9); PCall 0 (RPut (repeat 4 5000)); PDrop 1; PCall 0 (RPeek 2)].
Definition ex_start (rest : list answer) : proc := fresh (ex_world (ex_mixed_answers ++ rest)).
Definition ex_after (c : bool) (rest : list answer) : proc := snd (prun (t64 c) Anonymous ex_mixed (ex_start rest)).

Lemma prun_reached t plat h : forall p, preached t plat p -> Forall (pcall_ok t) h -> preached t plat (snd (prun t plat h p)).
Proof.
  induction h as [|c h IH]; cbn [prun]; intros p R F; [exact R|]. inversion F; subst.
  pose proof (IH _ (pr_step _ _ _ _ R H1) H2) as K. destruct (pstep t plat c p) as [x p1]. cbn [snd] in K. destruct (prun t plat h p1) as [xs p2]. exact K.
Qed.
Ltac pcalls_ok := repeat (apply Forall_cons; [vm_compute; intuition discriminate|]); apply Forall_nil.
Lemma ex_mixed_ok c : Forall (pcall_ok (t64 c)) ex_mixed.
Proof. destruct c; pcalls_ok. Qed.
Lemma ex_tail_ok c : Forall (pcall_ok (t64 c)) ex_tail.
Proof. destruct c; pcalls_ok. Qed.
Lemma ex_after_reached c rest : preached (t64 c) Anonymous (ex_after c rest).
Proof. apply prun_reached; [apply pr_start, ex_wf|apply ex_mixed_ok]. Qed.

(** ** C74: every ring made in any program answers like a queue that was empty
    when it was made, whatever is done to maps, files and other rings between
    its calls and whatever the kernel answers. *)
Theorem C74_ring_partial : forall t plat p hint clock k p1 h xs p2, posix_target t -> preached t plat p -> is_usize t hint ->
  pstep t plat (PRing hint clock) p = (ANew (Ret k), p1) -> Forall (pcall_ok t) h -> prun t plat h p1 = (xs, p2) ->
  exists cap, is_ceil (t_alloc t) hint cap /\
    (history_ok t 0 cap (calls_on k h) ->
     q_answers {| q_data := []; q_free := zeros cap |} (calls_on k h) (answers_on k h xs)).
Proof. intros t plat p hint clock k p1 h xs p2 Ht. exact (ring_end_to_end t plat Ht p hint clock k p1 h xs p2). Qed.
(** On 64-bit targets, up to 2^64 bytes through the ring. *)
Lemma calls_ok k h t : Forall (pcall_ok t) h -> Forall (rop_ok t) (calls_on k h).
Proof.
  induction 1 as [|c h Hc H IH]; [constructor|]. destruct c as [c|hint clock|hint clock|k2 c|k2 c|k2]; cbn [calls_on]; try exact IH.
  - destruct (k2 =? k); [constructor; assumption|exact IH].
  - destruct (k2 =? k); [constructor|exact IH].
Qed.
Theorem C74_ring_64bit : forall t plat p hint clock k p1 h xs p2, posix_target t -> t_bits t = 64 -> preached t plat p -> is_usize t hint ->
  pstep t plat (PRing hint clock) p = (ANew (Ret k), p1) -> Forall (pcall_ok t) h -> prun t plat h p1 = (xs, p2) ->
  exists cap, is_ceil (t_alloc t) hint cap /\
    (rops_weight cap (calls_on k h) < 2 ^ 64 ->
     q_answers {| q_data := []; q_free := zeros cap |} (calls_on k h) (answers_on k h xs)).
Proof.
  intros t plat p hint clock k p1 h xs p2 Ht H64 R Hh E F Er.
  destruct (ring_end_to_end t plat Ht p hint clock k p1 h xs p2 R Hh E F Er) as (cap & IC & K). exists cap. split; [exact IC|].
  intros Hw. apply K. apply history_ok_sum; [destruct IC as (_ & ? & _), Hh; lia|lia|apply calls_ok, F|]. apply pos_ok_64; [exact H64|lia].
Qed.
Theorem C74_infinite_partial : forall t plat p hint clock k p1 h xs p2, posix_target t -> preached t plat p -> is_usize t hint ->
  pstep t plat (PInf hint clock) p = (ANew (Ret k), p1) -> Forall (pcall_ok t) h -> prun t plat h p1 = (xs, p2) ->
  exists cap, is_ceil (t_alloc t) hint cap /\
    (ihistory_ok t 0 cap (icalls_on k h) ->
     lq_answers {| lq_tape := zeros cap; lq_len := 0 |} (icalls_on k h) (answers_on k h xs)).
Proof. intros t plat p hint clock k p1 h xs p2 Ht. exact (inf_end_to_end t plat Ht p hint clock k p1 h xs p2). Qed.
Example C74_case :
  let p := snd (prun (t64 true) Anonymous [PMap (COpen true mapmut_with_options 7)] (ex_start [Grant 0; Grant 0])) in
  let h := skipn 2 ex_mixed ++ ex_tail in
  preached (t64 true) Anonymous p /\
  fst (pstep (t64 true) Anonymous (PRing 100 epoch) p) = ANew (Ret 0) /\
  let '(xs, p2) := prun (t64 true) Anonymous h (snd (pstep (t64 true) Anonymous (PRing 100 epoch) p)) in
  calls_on 0 h = [RWriteAll [1; 2; 3]; RRead 2; RPut (repeat 5 4093); RWrite [6; 6; 6; 6; 6]; RRead 3; RPut (repeat 4 5000); RPeek 2] /\
  answers_on 0 h xs = [Ret OUnit; Ret (OBytes [1; 2]); Ret OUnit; Ret (OCount 2); Ret (OBytes [3; 5; 5]); Panic; Ret (OBytes [5; 5])] /\
  answers_on 1 h xs = [Ret (OCount 2); Ret (OBytes [7; 8])] /\
  rops_weight 4096 (calls_on 0 h) < 2 ^ 64.
Proof.
  cbv zeta. split; [|vm_compute; auto 10]. apply prun_reached; [apply pr_start, ex_wf|]. pcalls_ok.
Qed.
Print Assumptions C74_ring_partial.
Print Assumptions C74_ring_64bit.
Print Assumptions C74_infinite_partial.

(** ** C75: rings and maps do not touch each other. *)
Theorem C75_apart_partial : forall t plat p, posix_target t -> preached t plat p ->
  (forall k1 k2 h1 h2 a, pc_ring p k1 = Some h1 -> pc_ring p k2 = Some h2 -> k1 <> k2 -> ring_addr h1 a -> ring_addr h2 a -> False) /\
  (forall k h k' l a, pc_ring p k = Some h -> a_live (pc_a p) k' = Some l -> ring_addr h a -> map_addr l a -> False) /\
  (forall k1 k2 l1 l2 a, a_live (pc_a p) k1 = Some l1 -> a_live (pc_a p) k2 = Some l2 -> k1 <> k2 -> map_addr l1 a -> map_addr l2 a -> False).
Proof. intros t plat p Ht. exact (apart t plat Ht p). Qed.
(** Making a ring, using it and dropping it changes no byte the program could
    read, but those of the ring itself ... *)
Theorem C75_local_partial : forall t plat p c x p' a, posix_target t -> preached t plat p -> pcall_ok t c -> (forall c', c <> PMap c') ->
  pstep t plat c p = (x, p') ->
  (forall k h, ring_subject c = Some k -> pc_ring p k = Some h -> ~ ring_addr h a) -> load (E:=error) t (pc_w p) a <> Fault ->
  load (E:=error) t (pc_w p') a = load t (pc_w p) a.
Proof. intros t plat p c x p' a Ht. exact (ring_calls_local t plat Ht p c x p' a). Qed.
(** ... nor any file, descriptor or map. *)
Theorem C75_files_partial : forall t plat p c x p' path, posix_target t -> preached t plat p -> pcall_ok t c -> (forall c', c <> PMap c') ->
  pstep t plat c p = (x, p') -> 0 <= path ->
  w_fs (pc_w p') path = w_fs (pc_w p) path /\
  (forall o, w_fs (pc_w p) path = Some o -> w_obj (pc_w p') o = w_obj (pc_w p) o) /\
  (forall fd, w_fd (pc_w p') fd = w_fd (pc_w p) fd) /\ a_live (pc_a p') = a_live (pc_a p).
Proof. intros t plat p c x p' path Ht. exact (ring_calls_files t plat Ht p c x p' path). Qed.
(** Calls on a ring return or panic: no load or store of theirs faults. *)
Theorem C75_no_fault_partial : forall t plat p c r p', posix_target t -> preached t plat p -> pcall_ok t c ->
  pstep t plat c p = (ARing r, p') -> r = Panic \/ exists y, r = Ret y.
Proof. intros t plat p c r p' Ht. exact (ring_calls_safe t plat Ht p c r p'). Qed.
(** Any history of calls, none of them on ring [k]. *)
Theorem C75_ring_kept_partial : forall t plat p h xs p' k s, posix_target t -> preached t plat p -> Forall (pcall_ok t) h ->
  Forall (fun c => ring_subject c <> Some k) h -> pc_ring p k = Some s -> prun t plat h p = (xs, p') ->
  pc_ring p' k = Some s /\ forall a, ring_addr s a -> load (E:=error) t (pc_w p') a = load t (pc_w p) a.
Proof. intros t plat p h xs p' k s Ht R. exact (ring_kept t plat Ht h p xs p' k s (preached_ok t plat Ht p R)). Qed.
Example C75_case :
  let p := ex_after true [Grant 0; Grant 0] in let h := [PICall 1 (IWrite [1]); PMap (CDrop 0); PDrop 1] in
  preached (t64 true) Anonymous p /\ Forall (pcall_ok (t64 true)) h /\
  match pc_ring p 0, pc_ring p 1, a_live (pc_a p) 0 with
  | Some h0, Some h1, Some l => h_alloc h0 = {| ra_ptr := 131072; ra_len := 4096 |} /\ h_alloc h1 = {| ra_ptr := 262144; ra_len := 8192 |} /\
      l_map l = {| m_ptr := 65536; m_len := 10000 |}
  | _, _, _ => False
  end /\
  load (E:=error) (t64 true) (pc_w p) 65536 = Ret 9 /\ load (E:=error) (t64 true) (pc_w p) 131074 = Ret 3 /\
  load (E:=error) (t64 true) (pc_w p) (131074 + 4096) = Ret 3 /\
  load (E:=error) (t64 true) (pc_w (snd (pstep (t64 true) Anonymous (PCall 0 (RWrite [4])) p))) 65536 = Ret 9 /\
  load (E:=error) (t64 true) (pc_w (snd (prun (t64 true) Anonymous h p))) 131074 = Ret 3 /\
  load (E:=error) (t64 true) (pc_w (snd (prun (t64 true) Anonymous h p))) 65536 = Fault.
Proof.
  cbv zeta. split; [apply ex_after_reached|]. split; [pcalls_ok|]. vm_compute. auto 10.
Qed.
Print Assumptions C75_apart_partial.
Print Assumptions C75_local_partial.
Print Assumptions C75_files_partial.
Print Assumptions C75_no_fault_partial.
Print Assumptions C75_ring_kept_partial.

(** ** C76: nothing stays mapped.  [tidily t plat w p]: [p] is reached from
    kernel state [w] by calls in which the kernel did not refuse to take pages
    back, and no map of length 0 was dropped. *)
Theorem C76_mapped_partial : forall t plat w p pg, posix_target t -> tidily t plat w p ->
  (w_vm (pc_w p) pg <> None <-> w_vm w pg <> None \/ holds_page t p pg).
Proof. intros t plat w p pg Ht H. exact (bl_pages t (mapped w) p (tidily_balanced t plat Ht w p H) pg). Qed.
Theorem C76_all_dropped_partial : forall t plat w p, posix_target t -> tidily t plat w p ->
  (forall k, pc_ring p k = None) -> (forall k, a_live (pc_a p) k = None) ->
  forall pg, w_vm (pc_w p) pg = None <-> w_vm w pg = None.
Proof.
  intros t plat w p Ht H Nr Nm pg. pose proof (bl_pages t (mapped w) p (tidily_balanced t plat Ht w p H) pg) as B. unfold mapped in B.
  assert (N : ~ holds_page t p pg).
  { intros [(k & h & Hk & _)|(k & l & Hk & _)]; [rewrite Nr in Hk|rewrite Nm in Hk]; discriminate Hk. }
  destruct (w_vm (pc_w p) pg), (w_vm w pg); split; try congruence; intros _; exfalso; destruct B as [B1 B2].
  - destruct (B1 ltac:(discriminate)); [congruence|contradiction].
  - apply B2; [left; discriminate|reflexivity].
Qed.
(** Used in the example only: such runs can be recognised when the kernel
    refuses nothing at all. *)
Definition grant (x : answer) : bool := match x with Grant _ => true | Refuse _ => false end.
Fixpoint tidy_run (t : target) (plat : platform) (h : list pcall) (p : proc) : bool :=
  match h with
  | [] => true
  | c :: h =>
    let p' := snd (pstep t plat c p) in
    forallb grant (w_orc (pc_w p)) && match w_orc (pc_w p') with [] => false | _ => true end &&
    match c with PMap (CDrop k) => match a_live (pc_a p) k with Some l => 0 <? m_len (l_map l) | None => true end | _ => true end &&
    tidy_run t plat h p'
  end.
Lemma tidy_run_ok t plat w h : forall p, tidily t plat w p -> Forall (pcall_ok t) h -> tidy_run t plat h p = true ->
  tidily t plat w (snd (prun t plat h p)).
Proof.
  induction h as [|c h IH]; intros p T F E; [exact T|]. apply Forall_cons_iff in F as [F1 F]. cbn [tidy_run] in E.
  apply andb_true_iff in E as [E E4]. apply andb_true_iff in E as [E E3]. apply andb_true_iff in E as [E1 E2].
  assert (N : ~ refused_last (pc_w p) (pc_w (snd (pstep t plat c p)))).
  { intros [N|(q & e & N)].
    - rewrite N in E2. discriminate E2.
    - rewrite N in E1. rewrite forallb_app in E1. cbn in E1. rewrite andb_false_r in E1. discriminate E1. }
  assert (Td : tidy t plat c p).
  { unfold tidy. destruct (pstep t plat c p) as [x p']. cbn [snd] in N.
    destruct c as [c|hint clock|hint clock|k c|k c|k]; auto. destruct c; auto. split; [|exact N].
    intros l Hl. rewrite Hl in E3. apply Z.ltb_lt, E3. }
  pose proof (IH _ (td_step _ _ _ _ _ T F1 Td) F E4) as K. cbn [prun]. destruct (pstep t plat c p) as [x p1]. cbn [snd] in K.
  destruct (prun t plat h p1) as [xs p2]. exact K.
Qed.
Definition ex_drops : list pcall := [PMap (CDrop 0); PDrop 1; PDrop 0].
Example C76_case : forall c,
  let w := ex_world (ex_mixed_answers ++ [Grant 0; Grant 0; Grant 0; Grant 0]) in
  let p := snd (prun (t64 c) Anonymous ex_mixed (fresh w)) in
  let p' := snd (prun (t64 c) Anonymous (ex_mixed ++ ex_drops) (fresh w)) in
  tidily (t64 c) Anonymous w p /\ tidily (t64 c) Anonymous w p' /\
  w_vm (pc_w p) 17 <> None /\ w_vm (pc_w p) 33 <> None /\ w_vm (pc_w p) 67 <> None /\ w_vm (pc_w p) 68 = None /\
  pc_ring p' 0 = None /\ pc_ring p' 1 = None /\ a_live (pc_a p') 0 = None /\
  w_vm (pc_w p') 17 = None /\ w_vm (pc_w p') 33 = None /\ w_vm (pc_w p') 67 = None.
Proof.
  intros c. cbv zeta. split; [|split].
  - apply tidy_run_ok; [apply td_start, ex_wf|apply ex_mixed_ok|destruct c; vm_compute; reflexivity].
  - apply tidy_run_ok; [apply td_start, ex_wf| |destruct c; vm_compute; reflexivity].
    apply Forall_app. split; [apply ex_mixed_ok|destruct c; pcalls_ok].
  - destruct c; vm_compute; repeat split; try discriminate; reflexivity.
Qed.
(** When the kernel refuses, [Ring::drop] leaves the pages where they are. *)
Theorem C76_refused_leaks : exists t plat w h, posix_target t /\ wf w /\ Forall (pcall_ok t) h /\
  let p := snd (prun t plat h (fresh w)) in
  (forall k, pc_ring p k = None) /\ (forall k, a_live (pc_a p) k = None) /\ exists pg, w_vm w pg = None /\ w_vm (pc_w p) pg <> None.
Proof.
  exists (t64 true), Anonymous, (ring_world [Refuse EINVAL; Grant 0]), [PRing 100 epoch; PDrop 0].
  split; [apply t64_posix|]. split; [apply ex_wf|]. split; [pcalls_ok|]. split; [|split].
  - intros k. change (put (put (fun _ => None) 0 (Some (HRing (kring_new 65536 4096)))) 0 None k = None).
    unfold put. destruct (k =? 0); reflexivity.
  - intros k. reflexivity.
  - exists 16. split; [reflexivity|]. vm_compute. discriminate.
Qed.
Print Assumptions C76_refused_leaks.
Print Assumptions C76_mapped_partial.
Print Assumptions C76_all_dropped_partial.
