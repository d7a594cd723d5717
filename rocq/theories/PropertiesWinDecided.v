(** Property theorems C102: what each access to a map and each check on
    Windows does, decided for every argument, in every state of every
    interleaving, in builds with and without overflow checks, with other
    processes changing the files.

    [wtreached t s0 s]: see PropertiesWinThread.v; [prog_at s]: the maps and
    rings the program has, and the kernel, in [s]. *)
From Coq Require Import Lia.
From Verif Require Import Base Spec ErrorModel RingSpec SizeModel OsModel OthersModel MapModel MapSpec RingMapModel RingMapSpec SpanModel SpanSpec ProcModel
  WinModel WinSpec WinMapModel WinMapSpec WinThings WinProcModel WinProcSpec WinThreadModel WinThreadSpec WinThreadClaims WinOthersClaims WinDecided WinAllocWraps WinMapClaims3
  PropertiesSize PropertiesMap PropertiesSpan PropertiesWin PropertiesWinMap PropertiesWinProc PropertiesWinThread PropertiesWinOthers.

Definition prog_at (s : wtsys) : prog := wp_g (wt_p s).

(** ** A load through a map: panics outside the map; inside, it faults exactly
    if the page of the file it falls on begins at or behind the end of the
    file; otherwise there is a byte, the file's if the map is not a copy. *)
Theorem C102_load : forall t s0 s k v i, good_target t -> wtreached t s0 s -> g_tab (prog_at s) k = Some (TMap v) ->
  let f := w_obj (n_w (g_s (prog_at s))) (v_obj v) in
  (~ 0 <= i < m_len (v_map v) -> wreading t s k i = Panic) /\
  (0 <= i < m_len (v_map v) ->
    (wreading t s k i = Fault <-> o_size f <= t_page t * ((v_off v + i) / t_page t)) /\
    (t_page t * ((v_off v + i) / t_page t) < o_size f -> exists b, wreading t s k i = Ret (GByte b) /\
       (win_shares (v_prot v) = true -> b = o_data f (v_off v + i)))).
Proof. intros t s0 s k v i Ht R. exact (wload_exact t Ht (wp_g (wt_p s)) k v i (reached_prog t s0 s Ht R)). Qed.
(** The file of things 1 (from 5000 on) and 3 (a copy) is cut to 5100 bytes
    while thread 1 makes a ring. *)
Definition exd_state (q : list answer) : wtsys := acted (twin true) (OCut 7 5100) (exo_state q).
Lemma exd_reached q : exists s0, wtreached (twin true) s0 (exd_state q).
Proof. destruct (exo_reached q) as (s0 & R). exists s0. apply wtr_step; [exact R|]. split; [cbn; lia|reflexivity]. Qed.
Example C102_load_case : wt_pool (exd_state []) 1 <> None /\ option_map size_of (g_tab (prog_at (exd_state [])) 1) = Some 5000 /\
  map (wreading (twin true) (exd_state []) 1) [99; 100; 3191; 3192; 4999; 5000; -1] =
    [Ret (GByte (5099 mod 251)); Ret (GByte 0); Ret (GByte 0); Fault; Fault; Panic; Panic].
Proof. vm_compute. split; [discriminate|]. auto. Qed.
Print Assumptions C102_load.

(** ** A store through a [MapMut]: panics outside the map; inside, it faults
    exactly if the page begins at or behind the end of the file, or the map was
    created with a protection that does not allow writing (no conversion of it
    succeeds, C69; on POSIX systems one may, C89).  A store that faults changes
    nothing.  After any other, the byte is there, unless the map is no copy and
    the byte lies behind the end of the file. *)
Theorem C102_store : forall t s0 s k v i b, good_target t -> wtreached t s0 s -> g_tab (prog_at s) k = Some (TMap v) -> v_mut v = true ->
  let g := prog_at s in let f := w_obj (n_w (g_s g)) (v_obj v) in
  (~ 0 <= i < m_len (v_map v) -> act_step t (ASet k i b) g = (Panic, g)) /\
  (0 <= i < m_len (v_map v) ->
    let bad := o_size f <= t_page t * ((v_off v + i) / t_page t) \/ prot_writes (v_prot v) = false in
    (bad -> act_step t (ASet k i b) g = (Fault, g)) /\
    (~ bad -> exists g', act_step t (ASet k i b) g = (Ret GNone, g') /\ reading t g' k i =
       (if win_shares (v_prot v) && (o_size f <=? v_off v + i) then reading t g k i else Ret (GByte b)))).
Proof.
  intros t s0 s k v i b Ht R. exact (wstore_exact t Ht (wp_g (wt_p s)) k v i b (reached_prog t s0 s Ht R) (reached_lawful t s0 s R)).
Qed.
Example C102_store_case :
  let at_ k i := let '(r, g') := act_step (twin true) (ASet k i 42) (prog_at (exd_state [])) in (r, reading (twin true) g' k i) in
  at_ 1 99 = (Ret GNone, Ret (GByte 42)) /\ at_ 1 100 = (Ret GNone, Ret (GByte 0)) /\ at_ 1 3192 = (Fault, Fault) /\ at_ 1 5000 = (Panic, Panic) /\
  at_ 3 5099 = (Ret GNone, Ret (GByte 42)) /\ at_ 3 5100 = (Ret GNone, Ret (GByte 42)) /\ at_ 3 8192 = (Fault, Fault).
Proof. vm_compute. auto 10. Qed.
(** A [MapMut] made by [Options::<MapMut>::default()]. *)
Example C102_store_readonly : let s := snd (wtrun (twin true) (WEMap 1 true opt_default 3 :: repeat (WEGo 1) 6)
    (widle (ex_win [] [Grant 0; Grant 88; Grant 131072]))) in
  (exists s0, wtreached (twin true) s0 s) /\
  match g_tab (prog_at s) 0 with Some (TMap v) => (v_mut v, v_prot v) = (true, ReadOnly) | _ => False end /\
  reading (twin true) (prog_at s) 0 5 = Ret (GByte 5) /\ fst (act_step (twin true) (ASet 0 5 1) (prog_at s)) = Fault.
Proof.
  cbv zeta. split; [|vm_compute; auto]. eexists. apply wtrun_reached; [apply wtr_start, exw_fresh|wevents_ok].
Qed.
Print Assumptions C102_store.

(** ** Reading a scalar that lies inside a map: panics exactly if the access is
    volatile and misaligned; otherwise it faults exactly if the page of its
    last byte begins at or behind the end of the file. *)
Theorem C102_read : forall t B s0 s k v ty off x, good_target t -> wtreached t s0 s -> g_tab (prog_at s) k = Some (TMap v) ->
  0 <= off -> off + SpanModel.size_of t ty <= m_len (v_map v) -> x = ReadVolatile \/ x = ReadUnaligned ->
  let w := n_w (g_s (prog_at s)) in
  fst (perform t B (kernel_mem t) (v_map v) ty off x w) =
    if is_volatile x && negb ((m_ptr (v_map v) + off) mod align_of B ty =? 0) then Panic
    else if o_size (w_obj w (v_obj v)) <=? t_page t * ((v_off v + off + SpanModel.size_of t ty - 1) / t_page t) then Fault else Ret tt.
Proof.
  intros t B s0 s k v ty off x Ht R L O Le X. apply (wread_exact t Ht B (wp_g (wt_p s)) k v ty off x (reached_prog t s0 s Ht R) L O Le).
  destruct X as [-> | ->]; exact Logic.I.
Qed.
Example C102_read_case :
  match g_tab (prog_at (exd_state [])) 1 with
  | Some (TMap v) =>
    let at_ off x := fst (perform (twin true) x64 (kernel_mem (twin true)) (v_map v) U64 off x (n_w (g_s (prog_at (exd_state []))))) in
    at_ 3184 ReadVolatile = Ret tt /\ at_ 3185 ReadUnaligned = Fault /\ at_ 3185 ReadVolatile = Panic /\ at_ 3192 ReadVolatile = Fault
  | _ => False
  end.
Proof. vm_compute. auto 10. Qed.
Print Assumptions C102_read.

(** ** Writing a scalar that lies inside a [MapMut]: panics exactly if the access
    is volatile and misaligned; otherwise it faults exactly if the page of its
    last byte begins at or behind the end of the file, or the map was made with
    a protection that does not write. *)
Theorem C102_write : forall t B s0 s k v ty off b x, good_target t -> wtreached t s0 s -> g_tab (prog_at s) k = Some (TMap v) -> v_mut v = true ->
  0 <= off -> off + SpanModel.size_of t ty <= m_len (v_map v) -> x = WriteVolatile b \/ x = WriteUnaligned b ->
  let w := n_w (g_s (prog_at s)) in
  fst (perform t B (kernel_mem t) (v_map v) ty off x w) =
    if is_volatile x && negb ((m_ptr (v_map v) + off) mod align_of B ty =? 0) then Panic
    else if (o_size (w_obj w (v_obj v)) <=? t_page t * ((v_off v + off + SpanModel.size_of t ty - 1) / t_page t)) || negb (prot_writes (v_prot v))
    then Fault else Ret tt.
Proof.
  intros t B s0 s k v ty off b x Ht R. exact (wwrite_exact t Ht B (wp_g (wt_p s)) k v ty off b x (reached_prog t s0 s Ht R) (reached_lawful t s0 s R)).
Qed.
Example C102_write_case :
  let at_ s k off x := match g_tab (prog_at s) k with
    | Some (TMap v) => (v_mut v, fst (perform (twin true) x64 (kernel_mem (twin true)) (v_map v) U64 off x (n_w (g_s (prog_at s)))))
    | _ => (false, Blocked)
    end in
  let d := snd (wtrun (twin true) (WEMap 1 true opt_default 3 :: repeat (WEGo 1) 6) (widle (ex_win [] [Grant 0; Grant 88; Grant 131072]))) in
  at_ (exd_state []) 1 3184 (WriteVolatile 7) = (true, Ret tt) /\ at_ (exd_state []) 1 3185 (WriteUnaligned 7) = (true, Fault) /\
  at_ (exd_state []) 1 3185 (WriteVolatile 7) = (true, Panic) /\ at_ d 0 8 (WriteVolatile 7) = (true, Fault).
Proof. vm_compute. auto 10. Qed.
Print Assumptions C102_write.

(** ** The calls on part of a map without overflow checks, when the end of the
    range does not fit the word: refused exactly if the wrapped end lies behind
    the map; otherwise the os call is made on the pages of a range that begins
    in front of the map.  (When the end fits, and with overflow checks: C71.) *)
Theorem C102_range : forall t a s0 s k v off n op mu, good_target t -> wtreached t s0 s -> g_tab (prog_at s) k = Some (TMap v) ->
  act_range a = Some (k, off, n, op, mu) -> (mu = true -> v_mut v = true) -> is_usize t off -> is_usize t n ->
  t_checks t = false -> 2 ^ t_bits t <= off + n ->
  let start := m_ptr (v_map v) + off - 2 ^ t_bits t in let g := prog_at s in
  (m_len (v_map v) < off + n - 2 ^ t_bits t -> act_step t a g = (Err {| e_repr := RInput InvalidRange; e_op := op |}, g)) /\
  (off + n - 2 ^ t_bits t <= m_len (v_map v) -> t_page t <= start ->
     exists first c, act_step t a g = plain g (range_os t a (t_page t * first) (t_page t * c) (g_s g)) /\
       start < m_ptr (v_map v) /\
       t_page t * first <= start < t_page t * (first + 1) /\
       start + n <= t_page t * (first + c) < start + n + t_page t).
Proof.
  intros t a s0 s k v off n op mu Ht R Hk Ha Hm U1 U2 Ck Ge. cbv zeta.
  destruct (wrange_wraps t Ht a (wp_g (wt_p s)) k v off n op mu (reached_prog t s0 s Ht R) Hk Ha Hm U1 U2 Ck Ge) as [R1 R2]. split; [exact R1|].
  intros Le Lo. destruct (R2 Le Lo) as (first & c & E & X). exists first, c. split; [exact E|]. split; [|exact X]. unfold is_usize in U1. lia.
Qed.
(** Thing 1 has 100 bytes, at 131072; page 31 in front of it is the last one of
    thing 0. *)
Definition exd_two : wtsys := snd (wtrun (twin false)
  (WEAlloc 1 true (opt_len (ExtExact 65536) mapmut_with_options) :: repeat (WEGo 1) 3 ++ WEAlloc 1 true (opt_len (ExtExact 100) mapmut_with_options) :: repeat (WEGo 1) 3)
  (widle (ex_win [] [Grant 88; Grant 65536; Grant 88; Grant 131072; Grant 0]))).
Example C102_range_case :
  (exists s0, wtreached (twin false) s0 exd_two) /\ option_map addr_of (g_tab (prog_at exd_two) 1) = Some 131072 /\
  (let '(r, g') := act_step (twin false) (ALockRange 1 (2 ^ 64 - 4096) 4096) (prog_at exd_two) in
   r = Ret GNone /\ map (fun p => option_map p_lock (w_vm (n_w (g_s g')) p)) [30; 31; 32] = [Some false; Some true; Some false]) /\
  fst (act_step (twin false) (ALockRange 1 (2 ^ 64 - 4096) 4197) (prog_at exd_two)) = Err (error_input OpLock InvalidRange).
Proof. split; [|vm_compute; auto]. eexists. apply wtrun_reached; [apply wtr_start, exw_fresh|wevents_ok]. Qed.
Print Assumptions C102_range.

(** ** An anonymous map whose size does not fit the word ([walloc_fits] fails),
    without overflow checks: a call that succeeds has mapped one view, of the
    wrapped size.  With an exact or maximal length that view is smaller than a
    page and the map claims the whole length asked for; with a minimal length
    the view is one allocation unit and the map the rest of it. *)
Theorem C102_alloc : forall t o s m s', good_target t -> options_ok t o -> t_checks t = false -> ~ walloc_fits t o ->
  walloc t o s = (Ret m, s') ->
  let off := op_offset o mod t_page t in
  exists V, match op_len o with
  | ExtEnd => False
  | ExtMin l => 2 ^ t_bits t < off + l /\ m_len m = t_alloc t - off /\ V = t_alloc t
  | ExtExact l | ExtMax l => 2 ^ t_bits t < off + l /\ m_len m = l /\ V = off + l - 2 ^ t_bits t
  end /\
  m_ptr m = map_base t m + off /\ same_rest s s' /\ view_of t s s' (w_next (n_w s)) 0 V (op_protect o) (map_base t m) /\
  forall i, o_data (w_obj (n_w s') (w_next (n_w s))) i = 0.
Proof. intros t o s m s' Ht. exact (walloc_wraps t Ht o s m s'). Qed.
Definition exd_wide (e : extent) : options := opt_offset 10 (opt_len e mapmut_with_options).
Example C102_alloc_case :
  let r e := let '(x, s) := walloc (twin false) (exd_wide e) (ex_win [] [Grant 88; Grant 131072; Grant 0]) in (x, n_view s 131072) in
  ~ walloc_fits (twin false) (exd_wide (ExtMin (2 ^ 64 - 1))) /\ options_ok (twin false) (exd_wide (ExtMin (2 ^ 64 - 1))) /\
  r (ExtMin (2 ^ 64 - 1)) = (Ret {| m_ptr := 131082; m_len := 65526 |}, Some 16) /\
  r (ExtExact (2 ^ 64 - 1)) = (Ret {| m_ptr := 131082; m_len := 2 ^ 64 - 1 |}, Some 1) /\
  (exists x, r (ExtMin (2 ^ 64 - 10)) = (Err (last_os_error MapAnonymousHandle x), None)) /\
  (exists x, r (ExtMin (2 ^ 64 - 4000)) = (Err (last_os_error MapAnonymousHandle x), None)) /\
  (exists x, r (ExtExact (2 ^ 64 - 10)) = (Err (last_os_error MapAnonymousHandle x), None)).
Proof.
  split; [vm_compute; intros X; discriminate X|]. split; [vm_compute; intuition discriminate|]. vm_compute. eauto 12.
Qed.
Print Assumptions C102_alloc.

(** ** C72: [MapMut::new] on Windows gives at least [hint] writable zero bytes,
    up to the end of the allocation unit, in every build: with a hint so large
    that the size wraps it never succeeds. *)
Theorem C72_new : forall t hint s m s', good_target t -> wf (n_w s) -> is_usize t hint -> wmapmut_new t hint s = (Ret m, s') ->
  hint <= m_len m < hint + t_alloc t /\ m_len m mod t_alloc t = 0 /\ m_ptr m mod t_page t = 0 /\
  (forall i b, 0 <= i < m_len m -> wget t m i s' = (Ret 0, s') /\ fst (wset t m i b s') = Ret tt).
Proof.
  intros t hint s m s' Ht W U H.
  destruct (Z_lt_le_dec (hint + t_alloc t) (2 ^ t_bits t)) as [Lt|Ge]; [exact (wnew_lemma t Ht hint s m s' W U (or_introl Lt) H)|].
  destruct (t_checks t) eqn:Ck; [exact (wnew_lemma t Ht hint s m s' W U (or_intror Ck) H)|]. exfalso.
  assert (O : options_ok t (opt_len (ExtMin hint) mapmut_with_options)).
  { unfold is_usize in U. unfold options_ok, extent_ok, is_usize. cbn. repeat split; lia. }
  assert (N : ~ walloc_fits t (opt_len (ExtMin hint) mapmut_with_options)) by (unfold walloc_fits; cbn; lia).
  destruct (walloc_wraps t Ht _ _ _ _ O Ck N H) as (V & X & _). cbn in X. unfold is_usize in U. lia.
Qed.
Example C72_new_case : match wmapmut_new (twin true) 70000 (ex_win [] [Grant 88; Grant 131072]) with
  | (Ret m, s') => m = {| m_ptr := 131072; m_len := 131072 |} /\ fst (wset (twin true) m 131071 5 s') = Ret tt
  | _ => False end /\
  match fst (wmapmut_new (twin false) (2 ^ 64 - 5) (ex_win [] [Grant 88; Grant 131072])) with Err e => e_op e = MapAnonymousHandle | _ => False end.
Proof. vm_compute. auto. Qed.
Print Assumptions C72_new.
