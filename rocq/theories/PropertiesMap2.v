(** Property theorems C18-C23, C26, C57, C58: durability, hints, pinning,
    files, anonymous maps, the life of a map, errors.  ([reached t a], the
    example program: see PropertiesMap.v.) *)
From Coq Require Import Lia.
From Verif Require Import Base ErrorModel OsModel MapModel MapSpec ApiModel ApiSpec
  OsProofs MapProofs MapCreate MapOps ApiProofs MapClaims MapClaims2 MapClaims3 MapClaims4 MapClaims5 MapClaims6
  OptionsSpec OptionsProofs PropertiesSize PropertiesMap.

(** ** C18.  [run t h a1]: the state at the crash, after any further calls [h]
    (which include the kernel's own write-backs).  The byte on storage is the
    one cached at the flush, or one stored through a shared map afterwards, or
    0 if the file was cut and grown again by a later mapping call. *)
Theorem C18_durable : forall t a k l c off len a1 r h i, posix_target t -> reached t a -> a_live a k = Some l ->
  l_mut l = true -> l_shared l = true -> call_ok t c ->
  sync_call (m_len (l_map l)) c = Some (k, off, len) -> step t c a = (Ret r, a1) -> 0 <= i -> off <= i < off + len ->
  Forall (call_ok t) h ->
  let v := o_disk (w_obj (a_w (run t h a1)) (l_obj l)) (l_off l + i) in
  v = o_data (w_obj (a_w a) (l_obj l)) (l_off l + i) \/ stored_at t (l_obj l) (l_off l + i) v h a1 \/
  (v = 0 /\ Exists (fun c => resizes c = true) h).
Proof. intros t a k l c off len a1 r h i Ht R. exact (durable_values t Ht a k l c off len a1 r h i (reached_ok t Ht a R)). Qed.
Print Assumptions C18_durable.
(** If no call of the program asks for a file to be shortened, the third case
    does not occur. *)
Theorem C18_durable_uncut : forall t a k l c off len a1 r h i, posix_target t -> reached_by t (keeps_length t) a -> a_live a k = Some l ->
  l_mut l = true -> l_shared l = true -> call_ok t c ->
  sync_call (m_len (l_map l)) c = Some (k, off, len) -> step t c a = (Ret r, a1) -> 0 <= i -> off <= i < off + len ->
  Forall (call_ok t) h -> Forall (keeps_length t) h ->
  let v := o_disk (w_obj (a_w (run t h a1)) (l_obj l)) (l_off l + i) in
  v = o_data (w_obj (a_w a) (l_obj l)) (l_off l + i) \/ stored_at t (l_obj l) (l_off l + i) v h a1.
Proof.
  intros t a k l c off len a1 r h i Ht R.
  exact (durable_kept t Ht a k l c off len a1 r h i (life_reached t Ht (keeps_length t) a (fun c H => H) R)).
Qed.
(** Byte 4500 is stored, flushed with its page, and stored again: storage has
    the flushed value, until the kernel writes the page back. *)
Example C18_case :
  let a := run (t64 true) [CSet 0 4500 42] (ex_state true) in
  let a1 := snd (step (t64 true) (CFlushRange 0 4500 1 FlushSync) a) in
  fst (step (t64 true) (CFlushRange 0 4500 1 FlushSync) a) = Ret SNone /\
  o_disk (w_obj (a_w a) 1) 4500 = 4500 mod 251 /\
  o_disk (w_obj (a_w (run (t64 true) [CSet 0 4500 43] a1)) 1) 4500 = 42 /\
  o_disk (w_obj (a_w (run (t64 true) [CSet 0 4500 43; CWriteBack 1 1] a1)) 1) 4500 = 43.
Proof. vm_compute. auto 10. Qed.
Print Assumptions C18_durable_uncut.

(** ** C19 *)
Theorem C19_advise_hint_partial : forall t a k l c adv r a', posix_target t -> reached t a -> a_live a k = Some l -> call_ok t c ->
  advise_call c = Some (k, adv) -> step t c a = (r, a') ->
  a_live a' = a_live a /\ w_obj (a_w a') = w_obj (a_w a) /\ w_fd (a_w a') = w_fd (a_w a) /\ w_fs (a_w a') = w_fs (a_w a) /\
  (forall p, match w_vm (a_w a) p, w_vm (a_w a') p with
             | Some e, Some e' => unmoved e e'
             | None, None => True
             | _, _ => False
             end) /\
  (forall k' i, k' <> k -> read_at t a' k' i = read_at t a k' i) /\
  (adv <> AdvWillNotNeed \/ l_shared l = true -> forall k' i, read_at t a' k' i = read_at t a k' i).
Proof. intros t a k l c adv r a' Ht R. exact (advise_hint t Ht a k l c adv r a' (reached_ok t Ht a R)). Qed.
Example C19_case : let a := run (t64 true) [CSet 1 7 99] (ex_state true) in
  let a' := snd (step (t64 true) (CAdviseRange 1 0 3000 AdvSequential) a) in
  fst (step (t64 true) (CAdviseRange 1 0 3000 AdvSequential) a) = Ret SNone /\
  read_at (t64 true) a' 1 7 = Ret (SByte 99).
Proof. vm_compute. auto. Qed.
Print Assumptions C19_advise_hint_partial.
(** WillNotNeed on a copy map throws the map's stores away. *)
Theorem C19_will_not_need_refuted : exists a l, reached (t64 true) a /\ a_live a 1 = Some l /\
  let '(r, a') := step (t64 true) (CAdvise 1 AdvWillNotNeed) a in
  r = Ret SNone /\ read_at (t64 true) a 1 7 = Ret (SByte 99) /\ read_at (t64 true) a' 1 7 = Ret (SByte (5007 mod 251)).
Proof.
  exists (run (t64 true) [CSet 1 7 99] (ex_state true)).
  exists {| l_map := {| m_ptr := 131976; m_len := 3000 |}; l_mut := true; l_obj := 1; l_off := 5000; l_prot := ReadCopy; l_wr := true |}.
  split; [apply run_reached; [apply ex_reached|calls_ok]|]. vm_compute. auto.
Qed.
Print Assumptions C19_will_not_need_refuted.

(** ** C20.  [entry_call]: on success exactly a run of pages of this map,
    covering the range and, if it is not empty, all meeting it, changes, by
    [set_lock]; otherwise nothing changes and an error carries [op]. *)
Theorem C20_lock : forall t a k l c off len op b r a', posix_target t -> reached t a -> a_live a k = Some l -> call_ok t c ->
  lock_call (m_len (l_map l)) c = Some (k, off, len, op, b) -> step t c a = (r, a') ->
  a_live a' = a_live a /\
  match r with
  | Ret _ => same_files (a_w a) (a_w a') /\ off + len <= m_len (l_map l) /\ exists first n,
      (forall p, w_vm (a_w a') p = if in_pages first n p then option_map (set_lock b) (w_vm (a_w a) p) else w_vm (a_w a) p) /\
      (forall p, first <= p < first + n -> own_page t (l_map l) p) /\
      t_page t * first <= m_ptr (l_map l) + off /\ m_ptr (l_map l) + off + len <= t_page t * (first + n) /\
      (0 < len -> forall p, first <= p < first + n -> meets t p (m_ptr (l_map l) + off) len) /\
      (len = 0 -> 0 < m_len (l_map l) -> n <= 1)
  | Err e => e_op e = op /\ quiet (a_w a) (a_w a')
  | Panic => quiet (a_w a) (a_w a')
  | _ => False
  end /\
  (forall k' i, read_at t a' k' i = read_at t a k' i).
Proof.
  intros t a k l c off len op b r a' Ht R L C K E.
  destruct (lock_lemma t Ht a k l c off len op b r a' (reached_ok t Ht a R) L C K E) as (A & _ & B).
  split; [exact A|]. split; [exact B|]. exact (lock_reads t Ht a k l c off len op b r a' (reached_ok t Ht a R) L C K E).
Qed.
(** Locking then unlocking bytes of one page of map 0. *)
Example C20_case : let a1 := run (t64 true) [CLockRange 0 0 1] (ex_state true) in let a2 := run (t64 true) [CUnlock 0] a1 in
  option_map p_lock (w_vm (a_w a1) 16) = Some true /\ option_map p_lock (w_vm (a_w a1) 17) = Some false /\
  option_map p_lock (w_vm (a_w a2) 16) = Some false /\
  fst (step (t64 true) (CLock 0) (run (t64 true) [COpen true mapmut_with_options 7]
     (no_maps (ex_world [Grant 3; Grant 0; Grant 65536; Refuse ENOMEM])))) = Err (last_os_error OpLock ENOMEM).
Proof. vm_compute. auto 10. Qed.
Print Assumptions C20_lock.

(** ** C21 *)
Theorem C21_open : forall t o path w r w', posix_target t -> wf w -> options_ok t o -> open_ t o path w = (r, w') ->
  match r with
  | Ret (_, fd) => 0 <= fd /\ w_fd w fd = None /\ exists ob,
      w_fs w' path = Some ob /\ (w_fs w path = Some ob \/ (w_fs w path = None /\ ob = w_next w)) /\
      w_fd w' = put (w_fd w) fd (Some {| fd_obj := ob; fd_w := oo_write (op_open o) |})
  | Err _ => forall fd, w_fd w' fd = w_fd w fd
  | _ => False
  end.
Proof. intros t o path w r w' Ht. exact (open_fds t Ht o path w r w'). Qed.
Print Assumptions C21_open.
Theorem C21_open_if : forall t o path w r w', posix_target t -> wf w -> options_ok t o -> open_if t o path w = (r, w') ->
  match r with
  | Ret (_, fd) => 0 <= fd /\ w_fd w fd = None /\ exists ob,
      w_fs w' path = Some ob /\ (w_fs w path = Some ob \/ (w_fs w path = None /\ ob = w_next w)) /\
      w_fd w' = put (w_fd w) fd (Some {| fd_obj := ob; fd_w := oo_write (op_open o) |})
  | Err _ => forall fd, w_fd w' fd = w_fd w fd
  | _ => False
  end.
Proof. intros t o path w r w' Ht. exact (open_if_fds t Ht o path w r w'). Qed.
Print Assumptions C21_open_if.
Theorem C21_map : forall t o fd w r w', posix_target t -> wf w -> options_ok t o -> map_if t o fd w = (r, w') ->
  w_fd w' = w_fd w /\ w_fs w' = w_fs w.
Proof. intros t o fd w r w' Ht. exact (map_fds t Ht o fd w r w'). Qed.
Print Assumptions C21_map.
Theorem C21_close : forall t a fd a' r, step t (CClose fd) a = (r, a') ->
  r = Ret SNone /\ w_fd (a_w a') = put (w_fd (a_w a)) fd None /\ a_live a' = a_live a /\
  (forall k i, read_at t a' k i = read_at t a k i).
Proof. exact close_lemma. Qed.
(** A failed mmap after a successful open; closing under map 0. *)
Example C21_case :
  match open_ (t64 true) opt_new 7 (ex_world [Grant 3; Grant 0; Refuse ENOMEM]) with
  | (Err e, w') => e = last_os_error MapFile ENOMEM /\ w_fd w' 3 = None
  | _ => False end /\
  let a := run (t64 true) [CClose 3] (ex_state true) in
  w_fd (a_w (ex_state true)) 3 <> None /\ w_fd (a_w a) 3 = None /\ read_at (t64 true) a 0 9999 = Ret (SByte (9999 mod 251)).
Proof. vm_compute. repeat split. discriminate. Qed.
Print Assumptions C21_close.

(** ** C22.  Partial: without overflow checks the additions inside [alloc] must
    not wrap. *)
Theorem C22_alloc_partial : forall t o w m w', posix_target t -> wf w -> options_ok t o ->
  alloc_fits t o \/ t_checks t = true -> alloc t o w = (Ret m, w') ->
  alloc_len t o (m_len m) /\ m_ptr m mod t_page t = op_offset o mod t_page t /\
  (forall i, 0 <= i < m_len m -> map_get t m i w' = (Ret 0, w')) /\
  (forall ob, ob < w_next w -> w_obj w' ob = w_obj w ob) /\ w_fd w' = w_fd w /\ w_fs w' = w_fs w.
Proof. intros t o w m w' Ht. exact (alloc_lemma t Ht o w m w'). Qed.
Example C22_case :
  match alloc (t64 true) (opt_offset 10 (opt_len (ExtMin 5000) mapmut_with_options)) (ex_world [Grant 65536]) with
  | (Ret m, w') => m = {| m_ptr := 65546; m_len := 8182 |} /\ fst (map_get (t64 true) m 8181 w') = Ret 0
  | _ => False end.
Proof. vm_compute. auto. Qed.
Print Assumptions C22_alloc_partial.
(** [MapMut::new]: [C22_new] in PropertiesDecided.v. *)
(** In a release build an exact length just below 2^64 with an unaligned
    offset gives a one-page mapping that claims to be 2^64 - 1 bytes long:
    reading byte 4096 of it faults. *)
Theorem C22_wrap_refuted : exists o w, wf w /\ options_ok (t64 false) o /\
  match alloc (t64 false) o w with
  | (Ret m, w') => m_len m = 2 ^ 64 - 1 /\ fst (map_get (t64 false) m 4096 w') = Fault
  | _ => False
  end.
Proof.
  exists (opt_offset 2 (opt_len (ExtExact (2 ^ 64 - 1)) mapmut_with_options)), (ex_world [Grant 65536]).
  split; [apply ex_wf|]. split; [vm_compute; intuition discriminate|]. vm_compute. auto.
Qed.
Print Assumptions C22_wrap_refuted.

(** ** C23.  Any protection but ReadOnly: succeeds when the kernel grants an
    address range. *)
Theorem C23_alloc_partial : forall t o n w a q, posix_target t -> options_ok t o -> alloc_fits t o -> op_protect o <> ReadOnly ->
  alloc_len t o n -> 0 <= n -> 0 < op_offset o mod t_page t + n ->
  w_orc w = Grant a :: q -> range_ok t a (op_offset o mod t_page t + n) = true ->
  (forall p, a / t_page t <= p < a / t_page t + npages t (op_offset o mod t_page t + n) -> w_vm w p = None) ->
  exists w', alloc t o w = (Ret {| m_ptr := ptr_add t a (op_offset o mod t_page t); m_len := n |}, w').
Proof. intros t o n w a q Ht. exact (alloc_grant t Ht o n w a q). Qed.
Print Assumptions C23_alloc_partial.
(** ReadOnly, which is what [Map::with_options] starts from: always refused,
    whatever the kernel answers. *)
Theorem C23_readonly_refuted : forall t o w r w', posix_target t -> wf w -> options_ok t o ->
  alloc_fits t o \/ t_checks t = true -> op_protect o = ReadOnly -> alloc t o w = (r, w') ->
  (exists e, r = Err e /\ e_op e = MapAnonymous) \/ r = Panic.
Proof. intros t o w r w' Ht. exact (alloc_readonly t Ht o w r w'). Qed.
Example C23_case :
  fst (alloc (t64 true) (opt_len (ExtExact 100) map_with_options) (ex_world [Grant 65536])) = Err (last_os_error MapAnonymous EBADF) /\
  fst (alloc (t64 true) (opt_len (ExtExact 100) mapmut_with_options) (ex_world [Grant 65536])) = Ret {| m_ptr := 65536; m_len := 100 |}.
Proof. vm_compute. auto. Qed.
Print Assumptions C23_readonly_refuted.

(** ** C26.  Partial: as long as no call asks for a file to be shortened. *)
Theorem C26_readable_partial : forall t a k l i, posix_target t -> reached_by t (keeps_length t) a -> a_live a k = Some l ->
  0 <= i < m_len (l_map l) -> exists b, read_at t a k i = Ret (SByte b).
Proof.
  intros t a k l i Ht R. exact (life_readable t Ht a k l i (life_reached t Ht (keeps_length t) a (fun c H => H) R)).
Qed.
Lemma run_reached_by t ok h : forall a, reached_by t ok a -> Forall (call_ok t) h -> Forall ok h -> reached_by t ok (run t h a).
Proof.
  induction h as [|c h IH]; cbn; intros a R F K; [exact R|]. inversion F; subst. inversion K; subst.
  apply IH; [constructor|assumption|]; assumption.
Qed.
Lemma ex_reached_by c : reached_by (t64 c) (fun x => keeps_length (t64 c) x /\ asks_write x) (ex_state c).
Proof.
  unfold ex_state. apply run_reached_by; [apply rb_start; [apply ex_wf|]|calls_ok|].
  { intros o. cbn [w_obj ex_world]. destruct (o =? 1); vm_compute; split; congruence. }
  repeat (apply Forall_cons; [vm_compute; auto 10|]); apply Forall_nil.
Qed.
Print Assumptions C26_readable_partial.
(** Map 0 of the example shows file 7; opening the file again with
    truncate(true) takes its bytes away, and reading the map faults. *)
Theorem C26_truncate_refuted : exists a l, reached (t64 true) a /\ a_live a 0 = Some l /\ m_len (l_map l) = 10000 /\
  read_at (t64 true) a 0 0 = Fault.
Proof.
  exists (run (t64 true) [COpen true mapmut_with_options 7; COpen true (opt_truncate true mapmut_with_options) 7]
     (no_maps (ex_world [Grant 3; Grant 0; Grant 65536; Grant 4; Grant 0]))).
  exists {| l_map := {| m_ptr := 65536; m_len := 10000 |}; l_mut := true; l_obj := 1; l_off := 0; l_prot := ReadWrite; l_wr := true |}.
  split; [apply run_reached; [constructor; apply ex_wf|calls_ok]|]. vm_compute. auto.
Qed.
Print Assumptions C26_truncate_refuted.

(** ** C57.  Partial: no call asks for a file to be shortened, and a [MapMut]
    is only made with a writable protection, which is what every builder
    started with [MapMut::with_options] has. *)
Theorem C57_store_partial : forall t a k l i b, posix_target t ->
  reached_by t (fun c => keeps_length t c /\ asks_write c) a -> a_live a k = Some l -> l_mut l = true ->
  0 <= i < m_len (l_map l) -> exists a', step t (CSet k i b) a = (Ret SNone, a').
Proof.
  intros t a k l i b Ht R.
  exact (store_succeeds t Ht a k l i b (life_reached t Ht _ a (fun c H => proj1 H) R)
    (proj2 (writable_reached t Ht _ a (fun c H => proj2 H) R))).
Qed.
Example C57_case : reached_by (t64 true) (fun x => keeps_length (t64 true) x /\ asks_write x) (ex_state true) /\
  fst (step (t64 true) (CSet 1 2999 5) (ex_state true)) = Ret SNone /\
  fst (step (t64 true) (CSet 3 4095 5) (ex_state true)) = Ret SNone.
Proof. split; [apply ex_reached_by|]. vm_compute. auto. Qed.
Print Assumptions C57_store_partial.
Theorem C57_builder : forall l, prot_writes (op_protect (build l mapmut_with_options)) = true.
Proof. exact mut_builder. Qed.
Print Assumptions C57_builder.
(** [Options::<MapMut>::default()] is ReadOnly: the [MapMut] it opens has
    pages that may not be written, and storing to it faults. *)
Theorem C57_default_refuted : exists a l, reached (t64 true) a /\ a_live a 0 = Some l /\ l_mut l = true /\ m_len (l_map l) = 10000 /\
  fst (step (t64 true) (CSet 0 0 1) a) = Fault.
Proof.
  exists (run (t64 true) [COpen true opt_default 7] (no_maps (ex_world [Grant 3; Grant 0; Grant 65536]))).
  exists {| l_map := {| m_ptr := 65536; m_len := 10000 |}; l_mut := true; l_obj := 1; l_off := 0; l_prot := ReadOnly; l_wr := false |}.
  split; [apply run_reached; [constructor; apply ex_wf|calls_ok]|]. vm_compute. auto.
Qed.
Print Assumptions C57_default_refuted.

(** ** C58: every call of the mapping API, in any state *)
Theorem C58_api_errors : forall t c a e a', step t c a = (Err e, a') -> operation_of c = Some (e_op e).
Proof. exact errors_lemma. Qed.
Example C58_case :
  fst (step (t64 true) (CAdvise 0 AdvNormal) (run (t64 true) [COpen true mapmut_with_options 7]
     (no_maps (ex_world [Grant 3; Grant 0; Grant 65536; Refuse 5])))) = Err (last_os_error OpAdvise 5) /\
  fst (step (t64 true) (CDrop 0) (run (t64 true) [COpen true mapmut_with_options 7]
     (no_maps (ex_world [Grant 3; Grant 0; Grant 65536; Refuse 5])))) = Ret SNone.
Proof. vm_compute. auto. Qed.
Print Assumptions C58_api_errors.

(** ** C55: the option builder *)
Theorem C55_build : forall l o, build l o = expected l o.
Proof. exact build_expected. Qed.
Print Assumptions C55_build.
Theorem C55_independent : forall s1 s2 o, sets s1 <> sets s2 -> apply s1 (apply s2 o) = apply s2 (apply s1 o).
Proof. exact apply_commute. Qed.
Print Assumptions C55_independent.
Theorem C55_last_wins : forall s1 s2 o, sets s1 = sets s2 -> apply s1 (apply s2 o) = apply s1 o.
Proof. exact apply_last. Qed.
Print Assumptions C55_last_wins.
Theorem C55_needs_write : forall t o path w, oo_write (op_open o) = false ->
  oo_create (op_open o) = true \/ oo_create_new (op_open o) = true \/ oo_truncate (op_open o) = true ->
  open_if t o path w = (Err (error_io MapFile (IoOs EINVAL)), w) /\
  open_ t o path w = (Err (error_io MapFile (IoOs EINVAL)), w).
Proof. exact open_refused. Qed.
Print Assumptions C55_needs_write.
(** Write access to the file and a shared writable mapping go together,
    starting from either builder. *)
Theorem C55_access_matches : forall l o,
  (oo_write (op_open o) = true <-> op_protect o = ReadWrite) ->
  (oo_write (op_open (build l o)) = true <-> op_protect (build l o) = ReadWrite).
Proof. exact access_matches. Qed.
Example C55_case :
  oo_write (op_open mapmut_with_options) = true /\ op_protect mapmut_with_options = ReadWrite /\
  build [SCopy; SLen (ExtMax 5); SWrite; SOffset 3; SLen ExtEnd; STruncate true] opt_new =
  {| op_open := {| oo_write := true; oo_create := false; oo_create_new := false; oo_truncate := true |};
     op_resize := ExtEnd; op_len := ExtEnd; op_offset := 3; op_protect := ReadWrite; op_truncate := true |} /\
  fst (open_if (t64 true) (build [SCreate true; SCopy] mapmut_with_options) 7 (ex_world [Grant 3])) = Err (error_io MapFile (IoOs EINVAL)).
Proof. vm_compute. auto. Qed.
Print Assumptions C55_access_matches.

(** ** C12, C13: the conversions hand back the map they were given, when they
    succeed and when they fail. *)
Theorem C12_same_map : forall t m w, match into_map_mut t m w with (Ret m', _) | (Err (_, m'), _) => m' = m | _ => True end.
Proof. intros t m w. exact (convert_same m _ w). Qed.
Theorem C13_same_map : forall t m w, match into_map t m w with (Ret m', _) | (Err (_, m'), _) => m' = m | _ => True end.
Proof. intros t m w. exact (convert_same m _ w). Qed.
Example C13_case2 : let m := {| m_ptr := 65536; m_len := 5 |} in
  match into_map_mut (t64 true) m (ex_world [Refuse 5]) with (Err (e, m'), _) => m' = m /\ e = last_os_error OpProtect 5 | _ => False end /\
  match into_map (t64 true) m (ex_world [Refuse 5]) with (Err (e, m'), _) => m' = m | _ => False end.
Proof. vm_compute. auto. Qed.
Print Assumptions C12_same_map.
Print Assumptions C13_same_map.
