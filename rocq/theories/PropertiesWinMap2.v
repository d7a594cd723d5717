(** * Properties C71-C73: parts of maps, descriptors and errors on Windows

    The proofs are in WinMapClaims3.v, the words used in WinMapSpec.v. *)
From Coq Require Import Lia.
From Verif Require Import Base Spec ErrorModel SizeModel OsModel MapModel MapSpec RingMapModel RingMapSpec SizeProofs OsProofs PropertiesMap
  WinModel WinSpec PropertiesWin WinMapModel WinMapSpec WinThings WinMapClaims WinMapClaims3 PropertiesWinMap.

(** ** C71: calls on part of a map are refused unless the range lies inside
    the map, and never for another reason of the crate.  Partial: without
    overflow checks [off + n] must not wrap. *)
Theorem C71_range_checked_partial : forall t a g k v off n op mu, good_target t -> reached_win t any g -> g_tab g k = Some (TMap v) ->
  act_range a = Some (k, off, n, op, mu) -> (mu = true -> v_mut v = true) -> is_usize t off -> is_usize t n ->
  off + n < 2 ^ t_bits t \/ t_checks t = true ->
  (m_len (v_map v) < off + n -> off + n < 2 ^ t_bits t -> act_step t a g = (Err {| e_repr := RInput InvalidRange; e_op := op |}, g)) /\
  (2 ^ t_bits t <= off + n -> act_step t a g = (Panic, g)) /\
  (off + n <= m_len (v_map v) -> fst (act_step t a g) = Ret GNone \/ exists c, fst (act_step t a g) = Err (last_os_error op c)).
Proof. intros t a g k v off n op mu Ht R. exact (wrange_checked t Ht a g k v off n op mu (reached_prog t Ht any g R)). Qed.
(** Thing 1 has 4200 bytes. *)
Example C71_case : let g := exw_prog true [] [Grant 0] in
  fst (act_step (twin true) (ALockRange 1 4000 201) g) = Err (error_input OpLock InvalidRange) /\
  fst (act_step (twin true) (ALockRange 1 4000 200) g) = Ret GNone /\
  fst (act_step (twin true) (AFlushRange 0 3 5001 0 FlushAsync) g) = Err (error_input OpFlush InvalidRange) /\
  fst (act_step (twin true) (AAdviseRange 1 (2 ^ 64 - 1) 1 AdvNormal) g) = Panic.
Proof. vm_compute. auto 10. Qed.
Print Assumptions C71_range_checked_partial.
(** It wraps in release builds: thing 1 has 100 bytes, but a range of it pins a
    page of thing 0. *)
Theorem C71_wrap_refuted : exists g v off n, reached_win (twin false) any g /\ g_tab g 1 = Some (TMap v) /\
  is_usize (twin false) off /\ is_usize (twin false) n /\ m_len (v_map v) < off + n /\
  let '(r, g') := act_step (twin false) (ALockRange 1 off n) g in
  r = Ret GNone /\ exists v0 p e, g_tab g 0 = Some (TMap v0) /\ own_page (twin false) (v_map v0) p /\
    w_vm (n_w (g_s g')) p = Some e /\ p_lock e = true /\ option_map p_lock (w_vm (n_w (g_s g)) p) = Some false.
Proof.
  set (h := [AAlloc true (opt_len (ExtExact 65536) mapmut_with_options); AAlloc true (opt_len (ExtExact 100) mapmut_with_options)]).
  set (l := [Grant 88; Grant 65536; Grant 88; Grant 131072; Grant 0]).
  exists (act_run (twin false) h (holds_nothing (ex_win [] l))). eexists. exists (2 ^ 64 - 4096), 4096.
  split; [|split; [vm_compute; reflexivity|]].
  { exists (ex_win [] l), h. split; [apply exw_fresh|]. split; [|reflexivity].
    repeat constructor; cbn -[Z.pow]; unfold is_usize; cbn -[Z.pow]; change (2 ^ 64) with 18446744073709551616; lia. }
  split; [unfold is_usize; cbn -[Z.pow]; lia|]. split; [unfold is_usize; cbn -[Z.pow]; lia|]. split; [vm_compute; reflexivity|].
  match goal with |- let '(_, _) := ?x in _ => destruct x as [r g'] eqn:E end. vm_compute in E. injection E as <- <-.
  split; [reflexivity|]. eexists. exists 31. eexists. split; [vm_compute; reflexivity|]. split; [vm_compute; split; congruence|].
  split; [vm_compute; reflexivity|]. vm_compute. auto.
Qed.
Print Assumptions C71_wrap_refuted.

(** Locking and unlocking pins exactly the pages that meet the range, changes
    nothing else, and no byte of any map or ring. *)
Theorem C71_lock : forall t a g k v off n op b r g', good_target t -> reached_win t any g -> g_tab g k = Some (TMap v) ->
  act_lock (m_len (v_map v)) a = Some (k, off, n, op, b) -> 0 <= off -> 0 < n -> off + n <= m_len (v_map v) -> act_step t a g = (r, g') ->
  g_tab g' = g_tab g /\ other_state (g_s g) (g_s g') /\ (forall k i, reading t g' k i = reading t g k i) /\
  match r with
  | Ret x => x = GNone /\ pages_changed t (set_lock b) (g_s g) (g_s g') (m_ptr (v_map v) + off) n
  | Err e => same_space (g_s g) (g_s g') /\ exists c, e = last_os_error op c
  | _ => False
  end.
Proof. intros t a g k v off n op b r g' Ht R. exact (wlock_lemma t Ht a g k v off n op b r g' (reached_prog t Ht any g R)). Qed.
(** Thing 0 starts at 131072 + 5000: its bytes below 3192 lie on page 33, the others
    on page 34. *)
Example C71_case2 : let g := exw_prog true [ALockRange 0 3100 100; AUnlockRange 0 3192 1; ALock 1] [Grant 0; Grant 0; Grant 0; Grant 0] in
  map (fun p => option_map p_lock (w_vm (n_w (g_s g)) p)) [16; 17; 32; 33; 34] = [Some true; Some true; Some false; Some true; Some false] /\
  fst (act_step (twin true) (AUnlock 0) g) = Err (last_os_error OpUnlock 158).
Proof. vm_compute. auto. Qed.
Print Assumptions C71_lock.

(** Advice is ignored: the calls succeed and change nothing. *)
Theorem C71_advise : forall t a g k v off n, good_target t -> reached_win t any g -> g_tab g k = Some (TMap v) ->
  act_advise (m_len (v_map v)) a = Some (k, off, n) -> 0 <= off -> 0 <= n -> off + n <= m_len (v_map v) ->
  act_step t a g = (Ret GNone, g).
Proof. intros t a g k v off n Ht R. exact (wadvise_lemma t Ht a g k v off n (reached_prog t Ht any g R)). Qed.
(** The private stores of a copy survive [WillNotNeed] here (compare C19). *)
Example C71_case3 : let g := exw_prog true [ASet 3 5101 80; AAdvise 3 AdvWillNotNeed] [] in
  reading (twin true) g 3 5101 = Ret (GByte 80).
Proof. vm_compute. reflexivity. Qed.
Print Assumptions C71_advise.

(** ** C72: the variants of opening and mapping agree; a map that would not fit
    is an error instead of [None], and the file just opened is closed. *)
Theorem C72_map_agrees : forall t o fd s,
  wmap t o fd s = match wmap_if t o fd s with
                  | (Ret (Some m), s') => (Ret m, s')
                  | (Ret None, s') => (Err {| e_repr := RInput InvalidRange; e_op := MapFile |}, s')
                  | (Err e, s') => (Err e, s')
                  | (Panic, s') => (Panic, s')
                  | (Fault, s') => (Fault, s')
                  | (Blocked, s') => (Blocked, s')
                  end.
Proof. exact wmap_agrees. Qed.
Print Assumptions C72_map_agrees.
Theorem C72_open_agrees : forall t o path s,
  wopen t o path s = match wopen_if t o path s with
                     | (Ret (Some m, fd), s') => (Ret (m, fd), s')
                     | (Ret (None, fd), s') => (Err {| e_repr := RInput InvalidRange; e_op := MapFile |},
                                                with_w s' (set_fd (n_w s') (put (w_fd (n_w s')) fd None)))
                     | (Err e, s') => (Err e, s')
                     | (Panic, s') => (Panic, s')
                     | (Fault, s') => (Fault, s')
                     | (Blocked, s') => (Blocked, s')
                     end.
Proof. exact wopen_agrees. Qed.
Print Assumptions C72_open_agrees.

(** Exactly one descriptor more after a success, of the file of that name, with
    the right to write asked for; none after a failure. *)
Theorem C72_open : forall t o path s r s', good_target t -> wf (n_w s) -> options_ok t o -> wopen t o path s = (r, s') ->
  match r with
  | Ret (_, fd) => 0 <= fd /\ w_fd (n_w s) fd = None /\ exists ob, w_fs (n_w s') path = Some ob /\
      (w_fs (n_w s) path = Some ob \/ (w_fs (n_w s) path = None /\ ob = w_next (n_w s))) /\
      forall x, w_fd (n_w s') x = if x =? fd then Some {| fd_obj := ob; fd_w := oo_write (op_open o) |} else w_fd (n_w s) x
  | Err _ => forall x, w_fd (n_w s') x = w_fd (n_w s) x
  | _ => False
  end.
Proof. intros t o path s r s' Ht. exact (wopen_fds t Ht o path s r s'). Qed.
Print Assumptions C72_open.
Theorem C72_open_if : forall t o path s r s', good_target t -> wf (n_w s) -> options_ok t o -> wopen_if t o path s = (r, s') ->
  match r with
  | Ret (_, fd) => 0 <= fd /\ w_fd (n_w s) fd = None /\ exists ob, w_fs (n_w s') path = Some ob /\
      (w_fs (n_w s) path = Some ob \/ (w_fs (n_w s) path = None /\ ob = w_next (n_w s))) /\
      forall x, w_fd (n_w s') x = if x =? fd then Some {| fd_obj := ob; fd_w := oo_write (op_open o) |} else w_fd (n_w s) x
  | Err _ => forall x, w_fd (n_w s') x = w_fd (n_w s) x
  | _ => False
  end.
Proof. intros t o path s r s' Ht. exact (wopen_if_fds t Ht o path s r s'). Qed.
Print Assumptions C72_open_if.
(** Mapping an open file opens, closes and renames nothing. *)
Theorem C72_map : forall t o fd s r s', good_target t -> wf (n_w s) -> options_ok t o -> wmap_if t o fd s = (r, s') ->
  (forall x, w_fd (n_w s') x = w_fd (n_w s) x) /\ (forall x, w_fs (n_w s') x = w_fs (n_w s) x).
Proof. intros t o fd s r s' Ht. exact (wmap_fds t Ht o fd s r s'). Qed.
(** A second descriptor of file 7; a refused view; an offset behind the end. *)
Example C72_case :
  match wopen (twin true) mapmut_with_options 7 (ex_win [] [Grant 9; Grant 0; Grant 88; Grant 131072]) with
  | (Ret (m, 9), s') => m = {| m_ptr := 131072; m_len := 10000 |} /\ option_map fd_w (w_fd (n_w s') 9) = Some true
  | _ => False end /\
  match wopen (twin true) mapmut_with_options 7 (ex_win [] [Grant 9; Grant 0; Grant 88; Refuse 8]) with
  | (Err e, s') => e = last_os_error MapFileView 8 /\ w_fd (n_w s') 9 = None
  | _ => False end /\
  match wopen (twin true) (opt_offset 10001 opt_new) 7 (ex_win [] [Grant 9; Grant 0]) with
  | (Err e, s') => e = error_input MapFile InvalidRange /\ w_fd (n_w s') 9 = None
  | _ => False end /\
  match wopen_if (twin true) (opt_offset 10001 opt_new) 7 (ex_win [] [Grant 9; Grant 0]) with
  | (Ret (None, 9), s') => w_fd (n_w s') 9 <> None
  | _ => False end.
Proof. vm_compute. repeat split; discriminate. Qed.
Print Assumptions C72_map.

(** [MapMut::new]: [C72_new] in PropertiesWinDecided.v. *)

(** ** C73: every error names an operation of the call that failed, in every
    state; reading, storing, closing, dropping and advising all of a map never
    report one. *)
Theorem C73_errors : forall t a g e g', act_step t a g = (Err e, g') -> In (e_op e) (act_error a).
Proof. exact act_errors. Qed.
Example C73_case : let g := exw_prog true [] [Refuse 8] in
  fst (act_step (twin true) (ALock 0) g) = Err (last_os_error OpLock 8) /\
  fst (act_step (twin true) (AToMap 0) g) = Err (last_os_error OpProtect 8) /\
  fst (act_step (twin true) (ARing 5) g) = Err (last_os_error RingAllocate 8) /\
  fst (act_step (twin true) (ADrop 0) g) = Ret GNone.
Proof. vm_compute. auto. Qed.
Print Assumptions C73_errors.

(** The conversions hand back the map they were given, when they succeed and
    when they fail. *)
Theorem C69_same_map : forall t m s,
  match winto_map_mut t m s with (Ret m', _) | (Err (_, m'), _) => m' = m | _ => True end /\
  match winto_map t m s with (Ret m', _) | (Err (_, m'), _) => m' = m | _ => True end.
Proof. intros t m s. exact (conj (wconvert_same m _ s) (wconvert_same m _ s)). Qed.
Example C69_case2 : let m := {| m_ptr := 65536; m_len := 5 |} in
  match winto_map_mut (twin true) m (ex_win [] [Refuse 5]) with (Err (e, m'), _) => m' = m /\ e = last_os_error OpProtect 5 | _ => False end.
Proof. vm_compute. auto. Qed.
Print Assumptions C69_same_map.
