(** Property theorems C91 and C92: what happens between the system calls of
    one call (POSIX).

    [treached t plat s]: [s] is the state after any interleaving of any number
    of threads, each of which may be in the middle of a call that makes a map
    or a ring, and of other processes; from any well-formed kernel state,
    against any sequence of kernel answers.  [tpath t plat s h s']: the events
    [h] lead from [s] to [s'].  [EGo tid]: thread [tid] makes its next system
    call. *)
From Coq Require Import Lia.
From Verif Require Import Base Spec ErrorModel RingSpec RingModel RingTheorems RingClaims OsModel OthersModel MapModel MapSpec ApiModel ApiSpec
  RingMapModel RingMapSpec OsProofs MemRingModel ProcModel ProcSpec ProcProofs ProcClaims ThreadModel ThreadSpec ThreadInv
  ThreadClaims ThreadClaims2 ThreadClaims3 PropertiesSize PropertiesMap PropertiesRingMap PropertiesProc.

(** ** A concrete interleaving: thread 1 makes a ring, thread 2 maps file 7,
    another process writes to the file meanwhile. *)
Definition ex_both : list event :=
  [ERing 1 false 100 epoch; EOpen 2 true mapmut_with_options 7; EGo 1; EGo 2; EGo 1; EGo 2; EGo 1; ECall (PMap (COther (OWrite 7 5 [200] false)));
   EGo 1; EGo 2; EGo 2; EGo 2; EGo 1; EGo 1].
Definition ex_both_answers : list answer := [Grant 4; Grant 3; Grant 0; Grant 0; Grant 131072; Grant 0; Grant 65536; Grant 0].
Definition ex_idle (q : list answer) : tsys := idle (ex_world q).
Definition ex_at (n : nat) (q : list answer) : tsys := snd (trun (t64 true) Anonymous (firstn n ex_both) (ex_idle (ex_both_answers ++ q))).

(** Used in examples only: events that are possible in every state. *)
Definition always_ok (t : target) (e : event) : Prop :=
  match e with
  | ECall c => pcall_ok t c /\ one_step c = true /\ match c with PMap (CClose _) => False | _ => True end
  | EMap _ _ _ _ => False
  | EOpen _ _ o path => options_ok t o /\ 0 <= path
  | ERing _ _ hint _ => is_usize t hint
  | EGo _ => True
  end.
Lemma always_path t plat h : forall s, Forall (always_ok t) h -> tpath t plat s h (snd (trun t plat h s)).
Proof.
  induction h as [|e h IH]; intros s F; [constructor|]. apply Forall_cons_iff in F as [E F]. cbn [trun].
  pose proof (IH (snd (tstep t plat e s)) F) as K. assert (EO : ev_ok t s e).
  { destruct e; cbn in *; try tauto. destruct E as (A & B & C). split; [exact A|]. split; [exact B|]. intros fd i pd -> _. contradiction C. }
  destruct (tstep t plat e s) as [x s1] eqn:Es. cbn [snd] in K. destruct (trun t plat h s1) as [xs s2] eqn:Er. cbn [snd] in *.
  apply tp_cons; [exact EO|]. rewrite Es. exact K.
Qed.
Lemma path_reached t plat h : forall s s', treached t plat s -> tpath t plat s h s' -> treached t plat s'.
Proof.
  induction h as [|e h IH]; intros s s' R H; inversion H; subst; [exact R|].
  match goal with A : ev_ok _ _ _, B : tpath _ _ _ _ _ |- _ => exact (IH _ _ (tr_step _ _ _ _ R A) B) end.
Qed.
Ltac events_ok := repeat (apply Forall_cons; [vm_compute; intuition discriminate|]); apply Forall_nil.
Lemma ex_both_ok : Forall (always_ok (t64 true)) ex_both.
Proof. events_ok. Qed.
Lemma forall_firstn {A} (Q : A -> Prop) n : forall l, Forall Q l -> Forall Q (firstn n l).
Proof. induction n as [|n IH]; intros l F; [constructor|]. destruct F; constructor; auto. Qed.
Lemma ex_idle_reached q : treached (t64 true) Anonymous (ex_idle q).
Proof. apply tr_start, ex_wf. Qed.
Lemma ex_at_reached n q : treached (t64 true) Anonymous (ex_at n q).
Proof. eapply path_reached; [apply ex_idle_reached|apply always_path, forall_firstn, ex_both_ok]. Qed.

(** ** C91: the calls that make maps. *)
(** The stages of a call, run without interruption, are the call that the
    other theorems are about: same answer, same state. *)
Theorem C91_uninterrupted : forall t plat tid c e s, ts_pool s tid = None -> start_of tid c = Some e ->
  exists n s', alone t plat n tid e s = (as_tresult (fst (pstep t plat c (ts_p s))), s') /\ ts_p s' = snd (pstep t plat c (ts_p s)) /\
    ts_pool s' tid = None /\ forall i, i <> tid -> ts_pool s' i = ts_pool s i.
Proof. intros t plat. exact (uninterrupted t plat). Qed.
Example C91_uninterrupted_case :
  let s := ex_at 10 [Grant 262144] in
  ts_pool s 3 = None /\ ts_pool s 1 <> None /\ ts_pool s 2 <> None /\
  fst (alone (t64 true) Anonymous 6 3 (EOpen 3 false opt_new 7) s) = TMap (Ret (SFile (Some 0) 65536)) /\
  fst (pstep (t64 true) Anonymous (PMap (COpen false opt_new 7)) (ts_p s)) = AMap (Ret (SFile (Some 0) 65536)).
Proof. vm_compute. repeat split; discriminate. Qed.
Print Assumptions C91_uninterrupted.

(** Whatever happens between the system calls of [map_if] and [open_if]: if
    the call answers, then with a map (or none) as its options ask for a file
    of the length that [fstat] found.  The map is of the file the descriptor
    stood for, and shows its bytes as far as the file reaches then. *)
Theorem C91_decided : forall t plat s tid mut own o fd f h s2 y s3, posix_target t -> treached t plat s ->
  ts_pool s tid = Some (MStat mut own o fd) -> w_fd (pc_w (ts_p s)) fd = Some f ->
  tpath t plat (snd (tstep t plat (EGo tid) s)) h s2 -> Forall (fun e => starts e <> Some tid) h ->
  tstep t plat (EGo tid) s2 = (TMap (Ret y), s3) ->
  let L := final_len (op_truncate o) (op_resize o) (as_usize t (o_size (w_obj (pc_w (ts_p s)) (fd_obj f)))) in
  (out_of_file (op_len o) (op_offset o) L /\ y = (if own then SFile None fd else SNone) /\ ts_p s3 = ts_p s2) \/
  (~ out_of_file (op_len o) (op_offset o) L /\ exists k l, y = (if own then SFile (Some k) fd else SMap k) /\
     a_live (pc_a (ts_p s2)) k = None /\ a_live (pc_a (ts_p s3)) k = Some l /\ l_obj l = fd_obj f /\
     right_len (op_len o) (op_offset o) L (m_len (l_map l)) /\ l_off l = op_offset o /\ l_prot l = op_protect o /\ l_mut l = mut /\
     w_obj (pc_w (ts_p s3)) = w_obj (pc_w (ts_p s2)) /\
     forall i, 0 <= i < m_len (l_map l) -> op_offset o + i < o_size (w_obj (pc_w (ts_p s3)) (fd_obj f)) ->
       map_get t (l_map l) i (pc_w (ts_p s3)) = (Ret (o_data (w_obj (pc_w (ts_p s3)) (fd_obj f)) (op_offset o + i)), pc_w (ts_p s3))).
Proof.
  intros t plat s tid mut own o fd f h s2 y s3 Ht R. exact (map_thread t plat Ht s tid mut own o fd f h s2 y s3 (treached_ok t plat Ht s R)).
Qed.
(** The file is cut and written between the [fstat] and the [mmap] of thread 2. *)
Definition ex_cut_answers : list answer := [Grant 3; Grant 0; Grant 65536].
Definition ex_asked : tsys := snd (trun (t64 true) Anonymous [EOpen 2 true mapmut_with_options 7; EGo 2] (ex_idle ex_cut_answers)).
Definition ex_meanwhile (e : other) : list event := [ECall (PMap (COther (OWrite 7 5 [200] true))); EGo 2; ECall (PMap (COther e)); EGo 2].
Lemma ex_asked_reached : treached (t64 true) Anonymous ex_asked.
Proof. unfold ex_asked. eapply path_reached; [apply ex_idle_reached|apply always_path; events_ok]. Qed.
Example C91_decided_case :
  let s := ex_asked in let s1 := snd (tstep (t64 true) Anonymous (EGo 2) s) in let h := ex_meanwhile (OCut 7 4097) in
  let s2 := snd (trun (t64 true) Anonymous h s1) in let s3 := snd (tstep (t64 true) Anonymous (EGo 2) s2) in
  treached (t64 true) Anonymous s /\ ts_pool s 2 = Some (MStat true true mapmut_with_options 3) /\
  tpath (t64 true) Anonymous s1 h s2 /\ Forall (fun e => starts e <> Some 2) h /\
  fst (tstep (t64 true) Anonymous (EGo 2) s2) = TMap (Ret (SFile (Some 0) 3)) /\
  option_map l_map (a_live (pc_a (ts_p s3)) 0) = Some {| m_ptr := 65536; m_len := 10000 |} /\
  fst (map_get (t64 true) {| m_ptr := 65536; m_len := 10000 |} 5 (pc_w (ts_p s3))) = Ret 200 /\
  fst (map_get (t64 true) {| m_ptr := 65536; m_len := 10000 |} 4096 (pc_w (ts_p s3))) = Ret 80.
Proof.
  cbv zeta. split; [apply ex_asked_reached|]. split; [vm_compute; reflexivity|]. split; [apply always_path; events_ok|].
  split; [repeat (apply Forall_cons; [discriminate|]); apply Forall_nil|]. vm_compute. auto.
Qed.
Print Assumptions C91_decided.

(** But a map is not always readable, not even at first: behind the end the
    file has when the call returns, an access is fatal (SIGBUS). *)
Theorem C91_readable_refuted :
  ~ (forall t plat s tid y s' k l i, posix_target t -> treached t plat s -> tstep t plat (EGo tid) s = (TMap (Ret y), s') ->
       (y = SMap k \/ exists fd, y = SFile (Some k) fd) -> a_live (pc_a (ts_p s')) k = Some l -> 0 <= i < m_len (l_map l) ->
       fst (map_get t (l_map l) i (pc_w (ts_p s'))) <> Fault).
Proof.
  intros H. set (s2 := snd (trun (t64 true) Anonymous (ex_meanwhile (OCut 7 4096)) (snd (tstep (t64 true) Anonymous (EGo 2) ex_asked)))).
  assert (R : treached (t64 true) Anonymous s2).
  { eapply path_reached; [|apply always_path; events_ok]. apply tr_step; [apply ex_asked_reached|exact Logic.I]. }
  destruct (tstep (t64 true) Anonymous (EGo 2) s2) as [x s3] eqn:E.
  destruct (a_live (pc_a (ts_p s3)) 0) as [l|] eqn:El.
  - assert (X : x = TMap (Ret (SFile (Some 0) 3)) /\ (x, s3) = tstep (t64 true) Anonymous (EGo 2) s2).
    { split; [|auto]. transitivity (fst (tstep (t64 true) Anonymous (EGo 2) s2)); [rewrite E; reflexivity|vm_compute; reflexivity]. }
    destruct X as [-> _].
    assert (Y : l_map l = {| m_ptr := 65536; m_len := 10000 |} /\ fst (map_get (t64 true) {| m_ptr := 65536; m_len := 10000 |} 9000 (pc_w (ts_p s3))) = Fault).
    { assert (Z0 : option_map l_map (a_live (pc_a (ts_p (snd (tstep (t64 true) Anonymous (EGo 2) s2)))) 0) = Some {| m_ptr := 65536; m_len := 10000 |} /\
        fst (map_get (t64 true) {| m_ptr := 65536; m_len := 10000 |} 9000 (pc_w (ts_p (snd (tstep (t64 true) Anonymous (EGo 2) s2))))) = Fault)
        by (vm_compute; auto).
      rewrite E in Z0. cbn [snd] in Z0. rewrite El in Z0. destruct Z0 as [Z1 Z2]. cbn [option_map] in Z1. split; [congruence|exact Z2]. }
    destruct Y as [Y1 Y2].
    apply (H (t64 true) Anonymous s2 2 _ s3 0 l 9000 (t64_posix true) R E (or_intror (ex_intro _ 3 eq_refl)) El); rewrite Y1; [cbn; lia|exact Y2].
  - assert (Z0 : a_live (pc_a (ts_p (snd (tstep (t64 true) Anonymous (EGo 2) s2)))) 0 <> None) by (vm_compute; discriminate).
    rewrite E in Z0. exact (Z0 El).
Qed.
(** [resize] with [Min]: "at least the desired byte length, but may be larger"
    (src/map.rs:941-943), with [Max]: "no larger than" (src/map.rs:980-982).  Yet
    the former can throw bytes away and the latter make the file longer, since
    the length compared (src/map.rs:1192-1197) may be out of date. *)
Theorem C91_min_refuted :
  ~ (forall t plat s tid mut own o fd len n f, posix_target t -> treached t plat s -> ts_pool s tid = Some (MSize mut own o fd len) ->
       op_resize o = ExtMin n -> w_fd (pc_w (ts_p s)) fd = Some f ->
       o_size (w_obj (pc_w (ts_p s)) (fd_obj f)) <= o_size (w_obj (pc_w (ts_p (snd (tstep t plat (EGo tid) s)))) (fd_obj f))).
Proof.
  intros H. set (o := opt_resize (ExtMin 12000) mapmut_with_options).
  set (s := snd (trun (t64 true) Anonymous [EOpen 2 true o 7; EGo 2; EGo 2; ECall (PMap (COther (OGrow 7 50000))); EGo 2] (ex_idle [Grant 3; Grant 0; Grant 0]))).
  assert (R : treached (t64 true) Anonymous s).
  { eapply path_reached; [apply ex_idle_reached|apply always_path; events_ok]. }
  specialize (H (t64 true) Anonymous s 2 true true o 3 10000 12000 {| fd_obj := 1; fd_w := true |} (t64_posix true) R
    ltac:(vm_compute; reflexivity) eq_refl ltac:(vm_compute; reflexivity)).
  vm_compute in H. apply H. reflexivity.
Qed.
Theorem C91_max_refuted :
  ~ (forall t plat s tid mut own o fd len n f, posix_target t -> treached t plat s -> ts_pool s tid = Some (MSize mut own o fd len) ->
       op_resize o = ExtMax n -> w_fd (pc_w (ts_p s)) fd = Some f ->
       o_size (w_obj (pc_w (ts_p (snd (tstep t plat (EGo tid) s)))) (fd_obj f)) <= o_size (w_obj (pc_w (ts_p s)) (fd_obj f))).
Proof.
  intros H. set (o := opt_resize (ExtMax 5000) mapmut_with_options).
  set (s := snd (trun (t64 true) Anonymous [EOpen 2 true o 7; EGo 2; EGo 2; ECall (PMap (COther (OCut 7 100))); EGo 2] (ex_idle [Grant 3; Grant 0; Grant 0]))).
  assert (R : treached (t64 true) Anonymous s).
  { eapply path_reached; [apply ex_idle_reached|apply always_path; events_ok]. }
  specialize (H (t64 true) Anonymous s 2 true true o 3 10000 5000 {| fd_obj := 1; fd_w := true |} (t64_posix true) R
    ltac:(vm_compute; reflexivity) eq_refl ltac:(vm_compute; reflexivity)).
  vm_compute in H. apply H. reflexivity.
Qed.
Print Assumptions C91_readable_refuted.
Print Assumptions C91_min_refuted.
Print Assumptions C91_max_refuted.

(** A call is over after a fixed number of its own system calls, whatever the
    others do and however often they come in between; only the search for a
    free name for a ring ([Named]) may go on for longer. *)
Theorem C91_ends : forall t plat s tid pd h, ts_pool s tid = Some pd -> plat = Anonymous \/ searching pd = false ->
  Forall (fun e => starts e <> Some tid) h -> (steps_left pd <= own_steps tid h)%nat ->
  ts_pool (snd (trun t plat h s)) tid = None.
Proof. intros t plat s tid pd h Hp C F L. apply ends; [exact F|]. intros pd' Hp'. rewrite Hp in Hp'. injection Hp' as <-. auto. Qed.
Example C91_ends_case :
  let s := ex_at 2 [] in let h := skipn 2 ex_both ++ [EGo 2; EGo 2; EGo 1] in
  option_map steps_left (ts_pool s 1) = Some 7%nat /\ option_map steps_left (ts_pool s 2) = Some 6%nat /\
  own_steps 1 h = 7%nat /\ own_steps 2 h = 7%nat /\
  ts_pool (snd (trun (t64 true) Anonymous h s)) 1 = None /\ ts_pool (snd (trun (t64 true) Anonymous h s)) 2 = None.
Proof. vm_compute. auto 10. Qed.
Print Assumptions C91_ends.

(** ** C92: calls in progress do not touch each other's memory, nor that of
    the maps and rings there are. *)
Theorem C92_apart : forall t plat s x y a, posix_target t -> treached t plat s -> x <> y -> occupies s x a -> occupies s y a -> False.
Proof. intros t plat s x y a Ht R. exact (tok_apart t Ht s x y a (treached_ok t plat Ht s R)). Qed.
Theorem C92_mapped : forall t plat s x a, posix_target t -> treached t plat s -> occupies s x a -> w_vm (pc_w (ts_p s)) (a / t_page t) <> None.
Proof. intros t plat s x a Ht R. exact (tok_mapped t Ht s x a (treached_ok t plat Ht s R)). Qed.
(** The bytes of a ring change by its own calls only, also while other rings
    and maps are being made. *)
Theorem C92_ring_kept : forall t plat s h s' k r, posix_target t -> treached t plat s -> tpath t plat s h s' ->
  Forall (fun e => ~ acts_for e (HoldRing k)) h -> pc_ring (ts_p s) k = Some r ->
  pc_ring (ts_p s') k = Some r /\ forall a, ring_addr r a -> load (E:=error) t (pc_w (ts_p s')) a = load t (pc_w (ts_p s)) a.
Proof. intros t plat s h s' k r Ht R. exact (between_ring t plat Ht h s s' k r (treached_ok t plat Ht s R)). Qed.
Example C92_case :
  let s := ex_at 9 [] in
  treached (t64 true) Anonymous s /\ occupies s (HoldCall 1) 131072 /\ occupies s (HoldCall 1) 139263 /\
  occupies (ex_at 13 []) (HoldMap 0) 65536 /\ occupies (ex_at 13 []) (HoldCall 1) 139263 /\ occupies (ex_at 14 []) (HoldRing 0) 139263.
Proof.
  cbv zeta. split; [apply ex_at_reached|].
  split; [eexists; split; [vm_compute; reflexivity|vm_compute; intuition discriminate]|].
  split; [eexists; split; [vm_compute; reflexivity|vm_compute; intuition discriminate]|].
  split; [eexists; split; [vm_compute; reflexivity|vm_compute; intuition discriminate]|].
  split; [eexists; split; [vm_compute; reflexivity|vm_compute; intuition discriminate]|].
  eexists; split; [vm_compute; reflexivity|vm_compute; intuition discriminate].
Qed.
Print Assumptions C92_apart.
Print Assumptions C92_mapped.
Print Assumptions C92_ring_kept.

(** A ring whose allocation is interrupted at any of its system calls answers
    like a queue that was empty when it was made, in every interleaving of its
    calls with what others do.  ([_partial]: the positions must not wrap
    around, as in C01; on 64-bit targets that takes 2^64 bytes.) *)
Theorem C92_ring_partial : forall t plat s0 tid hint clock h s2 k s3 h' xs s4, posix_target t -> treached t plat s0 ->
  is_usize t hint -> ts_pool s0 tid = None ->
  tpath t plat (snd (tstep t plat (ERing tid false hint clock) s0)) h s2 -> Forall (fun e => starts e <> Some tid) h ->
  tstep t plat (EGo tid) s2 = (TRing (Ret k), s3) -> tpath t plat s3 h' s4 -> trun t plat h' s3 = (xs, s4) ->
  exists cap, is_ceil (t_alloc t) hint cap /\
    (history_ok t 0 cap (calls_on k (pcalls h')) ->
     q_answers {| q_data := []; q_free := zeros cap |} (calls_on k (pcalls h')) (answers_on k (pcalls h') (presults xs))).
Proof.
  intros t plat s0 tid hint clock h s2 k s3 h' xs s4 Ht R. exact (ring_thread t plat Ht s0 tid hint clock h s2 k s3 h' xs s4 (treached_ok t plat Ht s0 R)).
Qed.
Lemma path_calls t plat h : forall s s', tpath t plat s h s' -> Forall (pcall_ok t) (pcalls h).
Proof.
  induction h as [|e h IH]; intros s s' H; [constructor|]. inversion H; subst. cbn [pcalls]. apply Forall_app. split; [|eauto].
  destruct e; cbn; try constructor; [|constructor]. match goal with A : ev_ok _ _ _ |- _ => exact (proj1 A) end.
Qed.
Theorem C92_ring_64bit : forall t plat s0 tid hint clock h s2 k s3 h' xs s4, posix_target t -> t_bits t = 64 -> treached t plat s0 ->
  is_usize t hint -> ts_pool s0 tid = None ->
  tpath t plat (snd (tstep t plat (ERing tid false hint clock) s0)) h s2 -> Forall (fun e => starts e <> Some tid) h ->
  tstep t plat (EGo tid) s2 = (TRing (Ret k), s3) -> tpath t plat s3 h' s4 -> trun t plat h' s3 = (xs, s4) ->
  exists cap, is_ceil (t_alloc t) hint cap /\
    (rops_weight cap (calls_on k (pcalls h')) < 2 ^ 64 ->
     q_answers {| q_data := []; q_free := zeros cap |} (calls_on k (pcalls h')) (answers_on k (pcalls h') (presults xs))).
Proof.
  intros t plat s0 tid hint clock h s2 k s3 h' xs s4 Ht H64 R Hh N0 H F G H' Er.
  destruct (ring_thread t plat Ht s0 tid hint clock h s2 k s3 h' xs s4 (treached_ok t plat Ht s0 R) Hh N0 H F G H' Er) as (cap & IC & K).
  exists cap. split; [exact IC|]. intros Hw. apply K.
  apply history_ok_sum; [destruct IC as (_ & ? & _), Hh; lia|lia|exact (calls_ok k _ t (path_calls t plat _ _ _ H'))|]. apply pos_ok_64; [exact H64|lia].
Qed.
Theorem C92_infinite_partial : forall t plat s0 tid hint clock h s2 k s3 h' xs s4, posix_target t -> treached t plat s0 ->
  is_usize t hint -> ts_pool s0 tid = None ->
  tpath t plat (snd (tstep t plat (ERing tid true hint clock) s0)) h s2 -> Forall (fun e => starts e <> Some tid) h ->
  tstep t plat (EGo tid) s2 = (TRing (Ret k), s3) -> tpath t plat s3 h' s4 -> trun t plat h' s3 = (xs, s4) ->
  exists cap, is_ceil (t_alloc t) hint cap /\
    (ihistory_ok t 0 cap (icalls_on k (pcalls h')) ->
     lq_answers {| lq_tape := zeros cap; lq_len := 0 |} (icalls_on k (pcalls h')) (answers_on k (pcalls h') (presults xs))).
Proof.
  intros t plat s0 tid hint clock h s2 k s3 h' xs s4 Ht R. exact (inf_thread t plat Ht s0 tid hint clock h s2 k s3 h' xs s4 (treached_ok t plat Ht s0 R)).
Qed.
Definition ex_use : list event :=
  [ECall (PCall 0 (RWriteAll [1; 2; 3])); ERing 1 true 5000 epoch; EGo 1; EGo 1; ECall (PCall 0 (RRead 2)); EGo 1; EGo 1; EOpen 2 false opt_new 7;
   ECall (PMap (CDrop 0)); EGo 1; EGo 2; ECall (PCall 0 (RWrite [4])); EGo 1; ECall (PICall 1 (IWrite [7; 8])); ECall (PCall 0 (RRead 5)); ECall (PICall 1 (IRead 4))].
Example C92_ring_case :
  let q := [Grant 5; Grant 0; Grant 262144; Grant 0; Grant 0; Grant 0; Grant 6] in
  let s0 := ex_at 0 q in let h := removelast (skipn 1 ex_both) in
  let s2 := snd (trun (t64 true) Anonymous h (snd (tstep (t64 true) Anonymous (ERing 1 false 100 epoch) s0))) in
  let s3 := snd (tstep (t64 true) Anonymous (EGo 1) s2) in
  treached (t64 true) Anonymous s0 /\ Forall (fun e => starts e <> Some 1) h /\
  tpath (t64 true) Anonymous (snd (tstep (t64 true) Anonymous (ERing 1 false 100 epoch) s0)) h s2 /\
  fst (tstep (t64 true) Anonymous (EGo 1) s2) = TRing (Ret 0) /\
  tpath (t64 true) Anonymous s3 ex_use (snd (trun (t64 true) Anonymous ex_use s3)) /\
  calls_on 0 (pcalls ex_use) = [RWriteAll [1; 2; 3]; RRead 2; RWrite [4]; RRead 5] /\
  answers_on 0 (pcalls ex_use) (presults (fst (trun (t64 true) Anonymous ex_use s3))) = [Ret OUnit; Ret (OBytes [1; 2]); Ret (OCount 1); Ret (OBytes [3; 4])] /\
  answers_on 1 (pcalls ex_use) (presults (fst (trun (t64 true) Anonymous ex_use s3))) = [Ret (OCount 2); Ret (OBytes [7; 8])].
Proof.
  cbv zeta. split; [apply ex_at_reached|]. split; [repeat (apply Forall_cons; [discriminate|]); apply Forall_nil|].
  split; [apply always_path; events_ok|]. split; [vm_compute; reflexivity|]. split; [apply always_path; events_ok|]. vm_compute. auto.
Qed.
Print Assumptions C92_ring_partial.
Print Assumptions C92_ring_64bit.
Print Assumptions C92_infinite_partial.
