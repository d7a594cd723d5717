(** Property theorems C88: other processes.  Between any two calls of the
    program they may make, unlink, link, grow, cut and write any file
    ([COther e], OthersModel.v); every theorem about [reached], [reached_by]
    and [preached] states holds with such acts in the history.  Here: what the
    program sees of them.  ([reached t a], the example program [ex_state]: see
    PropertiesMap.v; [preached], [ex_after]: see PropertiesProc.v.) *)
From Coq Require Import Lia.
From Verif Require Import Base Spec ErrorModel RingSpec OsModel OthersModel MapModel MapSpec ApiModel ApiSpec
  RingMapModel RingMapSpec OsProofs ApiProofs MapClaims MemRingModel ProcModel ProcSpec ProcProofs ProcClaims ProcFrame OthersProofs OthersClaims AnonClaims
  PropertiesSize PropertiesMap PropertiesMap2 PropertiesRingMap PropertiesProc.

(** ** Nothing the program holds is taken from it: maps, descriptors and
    mapped pages stay, whatever is done. *)
Theorem C88_kept : forall t e a, posix_target t -> reached t a -> other_ok e ->
  let a' := snd (step t (COther e) a) in
  fst (step t (COther e) a) = Ret SNone /\ a_live a' = a_live a /\ (forall fd, w_fd (a_w a') fd = w_fd (a_w a) fd) /\
  forall p, match w_vm (a_w a) p, w_vm (a_w a') p with
            | Some x, Some x' => unmoved x x'
            | None, None => True
            | _, _ => False
            end.
Proof.
  intros t e a Ht R He. pose proof (others_interfered t e (a_w a) He) as V. cbn [step fst snd a_live set_w a_w].
  split; [reflexivity|]. split; [reflexivity|]. split; [intros fd; rewrite (iv_fd _ _ V); reflexivity|].
  intros p. pose proof (iv_vm _ _ V p) as X. destruct (w_vm (a_w a) p), (w_vm (others t e (a_w a)) p); try exact X.
  destruct X as ((H1 & H2 & H3 & H4 & H5 & H6 & H7 & H8) & _). repeat split; assumption.
Qed.
Example C88_kept_case : let a := ex_state true in let a' := snd (step (t64 true) (COther (OCut 7 0)) a) in
  option_map l_map (a_live a' 1) = Some {| m_ptr := 131976; m_len := 3000 |} /\
  option_map fd_obj (w_fd (a_w a') 3) = Some 1 /\ option_map p_obj (w_vm (a_w a') 16) = Some 1.
Proof. vm_compute. auto. Qed.
Print Assumptions C88_kept.

(** ** A write to the file is seen through every shared map of it at once:
    exactly the bytes written, at the file offsets they were written to. *)
Theorem C88_written : forall t path off d sync a k l i, posix_target t -> reached t a -> 0 <= off ->
  a_live a k = Some l -> l_shared l = true -> 0 <= i < m_len (l_map l) -> l_off l + i < o_size (w_obj (a_w a) (l_obj l)) ->
  w_fs (a_w a) path = Some (l_obj l) ->
  read_at t (snd (step t (COther (OWrite path off d sync)) a)) k i =
    if (off <=? l_off l + i) && (l_off l + i <? off + zlen d) then Ret (SByte (nth (Z.to_nat (l_off l + i - off)) d 0)) else read_at t a k i.
Proof. intros t path off d sync a k l i Ht R. exact (written t Ht path off d sync a k l i (reached_ok t Ht a R)). Qed.
Example C88_written_case : let a := ex_state true in let a' := snd (step (t64 true) (COther (OWrite 7 150 [201; 202] false)) a) in
  read_at (t64 true) a 2 50 = Ret (SByte 150) /\ read_at (t64 true) a' 2 50 = Ret (SByte 201) /\ read_at (t64 true) a' 0 151 = Ret (SByte 202) /\
  read_at (t64 true) a' 0 152 = Ret (SByte 152).
Proof. vm_compute. auto. Qed.
Print Assumptions C88_written.

(** ** What is done to other files, or only to names, is not seen. *)
Theorem C88_elsewhere : forall t e a k i, posix_target t -> reached t a -> other_ok e ->
  (forall l, a_live a k = Some l -> ~ reaches (a_w a) e (l_obj l)) ->
  read_at t (snd (step t (COther e) a)) k i = read_at t a k i.
Proof. intros t e a k i Ht R. exact (elsewhere t Ht e a k i (reached_ok t Ht a R)). Qed.
(** The file is replaced by another of the same name: the maps still show the
    old one. *)
Definition ex_replaced : api := run (t64 true) [COther (OUnlink 7); COther (OMake 7); COther (OGrow 7 20000)] (ex_state true).
Example C88_elsewhere_case :
  reached (t64 true) ex_replaced /\ (forall l, a_live ex_replaced 0 = Some l -> ~ reaches (a_w ex_replaced) (OWrite 7 150 [201; 202] true) (l_obj l)) /\
  read_at (t64 true) (snd (step (t64 true) (COther (OWrite 7 150 [201; 202] true)) ex_replaced)) 0 150 = Ret (SByte 150) /\
  w_fs (a_w ex_replaced) 7 = Some 3.
Proof.
  split; [apply run_reached; [apply ex_reached|]; calls_ok|]. split; [|vm_compute; auto]. intros l H.
  assert (O : option_map l_obj (a_live ex_replaced 0) = Some 1) by (vm_compute; reflexivity).
  assert (F : w_fs (a_w ex_replaced) 7 = Some 3) by (vm_compute; reflexivity).
  rewrite H in O. cbn [option_map] in O. injection O as O. unfold reaches. rewrite F, O. discriminate.
Qed.
Print Assumptions C88_elsewhere.

(** ** A file that is cut below a map: a byte of the map can be loaded exactly
    if the page it lies on still begins before the end; behind the end it is
    0, before it as it was. *)
Theorem C88_cut : forall t path sz a k l i, posix_target t -> reached t a ->
  a_live a k = Some l -> l_shared l = true -> 0 <= i < m_len (l_map l) -> 0 <= sz < o_size (w_obj (a_w a) (l_obj l)) ->
  w_fs (a_w a) path = Some (l_obj l) ->
  read_at t (snd (step t (COther (OCut path sz)) a)) k i =
    if sz <=? t_page t * ((l_off l + i) / t_page t) then Fault
    else if l_off l + i <? sz then read_at t a k i else Ret (SByte 0).
Proof. intros t path sz a k l i Ht R. exact (cut t Ht path sz a k l i (reached_ok t Ht a R)). Qed.
Example C88_cut_case : let a := ex_state true in let a' := snd (step (t64 true) (COther (OCut 7 5000)) a) in
  read_at (t64 true) a' 0 4999 = Ret (SByte (4999 mod 251)) /\ read_at (t64 true) a' 0 5000 = Ret (SByte 0) /\
  read_at (t64 true) a' 0 8191 = Ret (SByte 0) /\ read_at (t64 true) a' 0 8192 = Fault.
Proof. vm_compute. auto. Qed.
Print Assumptions C88_cut.

(** ** Private maps: from the first store to a page on, other processes change
    nothing of it, unless they cut the file. *)
Theorem C88_copy_kept : forall t a k l i b a' es i', posix_target t -> reached t a ->
  a_live a k = Some l -> l_mut l = true -> l_shared l = false ->
  step t (CSet k i b) a = (Ret SNone, a') ->
  0 <= i' < m_len (l_map l) -> (l_off l + i') / t_page t = (l_off l + i) / t_page t ->
  Forall other_ok es -> Forall (fun e => cuts e = false) es ->
  read_at t (run t (map COther es) a') k i' = read_at t a' k i'.
Proof.
  intros t a k l i b a' es i' Ht R Hl Hm Hs E Hi Hp F1 F2.
  rewrite <- (copy_kept t Ht a k l i b a' es i' (reached_ok t Ht a R) Hl Hm Hs E Hi Hp F1 F2). f_equal.
  clear. revert a'. induction es as [|e es IH]; intros a'; [reflexivity|]. cbn [map run afters]. apply IH.
Qed.
(** Page 2 of the file (bytes 8192 ...) is not in the map; bytes 5000 and 8100
    are on page 1, of which the program has a copy. *)
Example C88_copy_case :
  let a' := snd (step (t64 true) (CSet 1 0 42) (ex_state true)) in
  let a'' := run (t64 true) (map COther [OWrite 7 5000 (repeat 9 3000) true; OGrow 7 30000; OUnlink 7]) a' in
  fst (step (t64 true) (CSet 1 0 42) (ex_state true)) = Ret SNone /\
  read_at (t64 true) a'' 1 0 = Ret (SByte 42) /\ read_at (t64 true) a'' 1 2999 = Ret (SByte (7999 mod 251)) /\
  read_at (t64 true) a'' 0 5000 = Ret (SByte 9).
Proof. vm_compute. auto. Qed.
Print Assumptions C88_copy_kept.

(** ** Anonymous maps: no history [h] of calls on other maps, on files and of
    acts of other processes changes a byte of one, whatever the program did
    with it before ([h0]).  Partial: [call_ok] (without overflow checks the
    offsets of [*_range] calls do not wrap, see [C16_wrap_refuted]). *)
Theorem C88_anonymous_partial : forall t mut o a k a1 h0 h i, posix_target t -> reached t a ->
  call_ok t (CAlloc mut o) -> step t (CAlloc mut o) a = (Ret (SMap k), a1) ->
  Forall (call_ok t) (h0 ++ h) -> Forall named_ok (h0 ++ h) -> Forall (fun c => c <> CDrop k) h0 ->
  Forall (fun c => subject c <> Some k) h ->
  read_at t (run t h (run t h0 a1)) k i = read_at t (run t h0 a1) k i.
Proof.
  intros t mut o a k a1 h0 h i Ht R Ck E F1 F2 F3 F4. apply Forall_app in F1 as [F1 F1']. apply Forall_app in F2 as [F2 F2'].
  destruct (alloc_alone t Ht mut o a k a1 (reached_ok t Ht a R) Ck E) as (l & Al).
  destruct (alone_any t Ht h0 a1 k l Al F1 F2 F3) as (l' & Al'). exact (alone_run t Ht h _ k l' Al' F1' F2' F4 i).
Qed.
Example C88_anonymous_case :
  let a := run (t64 true) (firstn 3 ex_calls) (no_maps (ex_world ex_answers)) in
  let h0 := [CSet 3 5 77; CToMap 3] in
  let h := [COther (OUnlink 7); CSet 0 5 1; COther (OMake 7); COther (OWrite 7 0 [1; 2; 3] true); CDrop 0; COpen false opt_new 7] in
  reached (t64 true) a /\ fst (step (t64 true) (CAlloc true (opt_len (ExtMin 100) mapmut_with_options)) a) = Ret (SMap 3) /\
  Forall (call_ok (t64 true)) (h0 ++ h) /\ Forall named_ok (h0 ++ h) /\ Forall (fun c => c <> CDrop 3) h0 /\ Forall (fun c => subject c <> Some 3) h /\
  read_at (t64 true) (run (t64 true) (h0 ++ h) (ex_state true)) 3 5 = Ret (SByte 77) /\
  read_at (t64 true) (run (t64 true) (h0 ++ h) (ex_state true)) 0 5 <> read_at (t64 true) (ex_state true) 0 5.
Proof.
  cbv zeta. split; [apply run_reached; [constructor; apply ex_wf|calls_ok]|]. split; [vm_compute; reflexivity|]. split; [calls_ok|]. split; [calls_ok|].
  split; [calls_ok|]. split; [calls_ok|]. split; [vm_compute; reflexivity|]. vm_compute. discriminate.
Qed.
Print Assumptions C88_anonymous_partial.

(** ** Rings: no act of other processes changes a byte or an index of one. *)
Theorem C88_ring_partial : forall t plat p es xs p' k s, posix_target t -> preached t plat p ->
  Forall (fun e => other_ok e /\ named_ok (COther e)) es -> pc_ring p k = Some s ->
  prun t plat (map (fun e => PMap (COther e)) es) p = (xs, p') ->
  pc_ring p' k = Some s /\ forall a, ring_addr s a -> load (E:=error) t (pc_w p') a = load t (pc_w p) a.
Proof.
  intros t plat p es xs p' k s Ht R F Hk E. apply (ring_kept t plat Ht (map (fun e => PMap (COther e)) es) p xs p' k s (preached_ok t plat Ht p R)); try assumption.
  - apply Forall_map. eapply Forall_impl; [|exact F]. intros e [H1 H2]. split; assumption.
  - apply Forall_map, Forall_forall. discriminate.
Qed.
(** File 7 is truncated, rewritten and unlinked between the calls on ring 0. *)
Example C88_ring_case :
  let acts := [PMap (COther (OCut 7 0)); PMap (COther (OGrow 7 50)); PMap (COther (OWrite 7 0 [6; 6; 6] true)); PMap (COther (OUnlink 7))] in
  let h := PCall 0 (RWriteAll [5; 5]) :: acts ++ [PCall 0 (RRead 3)] in
  Forall (pcall_ok (t64 true)) h /\
  fst (prun (t64 true) Anonymous h (ex_after true [])) =
    ARing (Ret OUnit) :: map (fun _ => AMap (Ret SNone)) acts ++ [ARing (Ret (OBytes [3; 5; 5]))].
Proof. split; [pcalls_ok|vm_compute; reflexivity]. Qed.
Print Assumptions C88_ring_partial.

(** ** Where shared memory has names (shm_open), the crate ignores the result
    of [shm_unlink] (memfd.rs:57): if the kernel refuses it, the memory of the
    ring keeps a name, and a process that uses it changes what the ring
    holds. *)
Definition ex_named : proc :=
  snd (prun (t64 true) Named [PRing 100 epoch; PCall 0 (RWriteAll [1; 2; 3])]
    (fresh (ex_world ([Grant 3; Refuse EACCES; Grant 0; Grant 131072; Grant 0; Grant 0])))).
Theorem C88_named_memory_refuted : exists e, preached (t64 true) Named ex_named /\ other_ok e /\
  fst (pstep (t64 true) Named (PCall 0 (RPeek 3)) ex_named) = ARing (Ret (OBytes [1; 2; 3])) /\
  fst (pstep (t64 true) Named (PCall 0 (RPeek 3)) (snd (pstep (t64 true) Named (PMap (COther e)) ex_named))) = ARing (Ret (OBytes [1; 9; 3])).
Proof.
  exists (OWrite (shm_path [47; 118; 109; 97; 112; 45; 51; 52; 53; 54; 55; 56; 57]) 1 [9] false). split; [|split; [cbn; lia|]].
  - apply prun_reached; [apply pr_start, ex_wf|pcalls_ok].
  - vm_compute. auto.
Qed.
Print Assumptions C88_named_memory_refuted.
