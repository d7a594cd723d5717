(** Property theorems C89: what each access and each check does, decided for
    every argument, in every state a program reaches, in builds with and
    without overflow checks. *)
From Coq Require Import Lia.
From Verif Require Import Base ErrorModel SizeModel OsModel MapModel MapSpec MapProofs OthersModel ApiModel ApiSpec ApiProofs MapClaims MapClaims2 MapClaims4
  SpanModel SpanSpec RingMapModel ExactClaims ExactWrites PropertiesSize PropertiesMap PropertiesMap2 PropertiesSpan.

(** ** A load through a map: panics outside the map; inside, it faults exactly
    if the page of the file it falls on begins at or behind the end of the
    file; otherwise there is a byte, for a shared map the file's. *)
Theorem C89_load : forall t a k l i, posix_target t -> reached t a -> a_live a k = Some l ->
  (~ 0 <= i < m_len (l_map l) -> read_at t a k i = Panic) /\
  (0 <= i < m_len (l_map l) ->
    (read_at t a k i = Fault <-> o_size (w_obj (a_w a) (l_obj l)) <= t_page t * ((l_off l + i) / t_page t)) /\
    (t_page t * ((l_off l + i) / t_page t) < o_size (w_obj (a_w a) (l_obj l)) -> exists b, read_at t a k i = Ret (SByte b) /\
       (l_shared l = true -> b = o_data (w_obj (a_w a) (l_obj l)) (l_off l + i)))).
Proof. intros t a k l i Ht R. exact (load_exact t Ht a k l i (reached_ok t Ht a R)). Qed.
(** Another process cuts the file of map 0 to 4200 bytes. *)
Definition ex_cut : api := snd (step (t64 true) (COther (OCut 7 4200)) (ex_state true)).
Example C89_load_case : reached (t64 true) ex_cut /\ option_map l_off (a_live ex_cut 0) = Some 0 /\
  read_at (t64 true) ex_cut 0 4199 = Ret (SByte (4199 mod 251)) /\ read_at (t64 true) ex_cut 0 4200 = Ret (SByte 0) /\
  read_at (t64 true) ex_cut 0 8191 = Ret (SByte 0) /\ read_at (t64 true) ex_cut 0 8192 = Fault /\ read_at (t64 true) ex_cut 0 99999 = Panic.
Proof. split; [apply reach_step; [apply ex_reached|cbn; lia]|]. vm_compute. auto 10. Qed.
Print Assumptions C89_load.

(** ** A store through a [MapMut]: panics outside the map; inside, it faults
    exactly if the page begins at or behind the end of the file, or the map
    was created without a protection for writing and never converted.  A
    store that faults changes nothing. *)
Theorem C89_store : forall t h w k l i b, posix_target t -> wf w -> Forall (call_ok t) h -> let a := run t h (no_maps w) in
  a_live a k = Some l -> l_mut l = true ->
  (~ 0 <= i < m_len (l_map l) -> step t (CSet k i b) a = (Panic, a)) /\
  (0 <= i < m_len (l_map l) ->
    let bad := o_size (w_obj (a_w a) (l_obj l)) <= t_page t * ((l_off l + i) / t_page t) \/
               (prot_writes (l_prot l) = false /\ converted t h (no_maps w) k = false) in
    (bad -> step t (CSet k i b) a = (Fault, a)) /\
    (~ bad -> fst (step t (CSet k i b) a) = Ret SNone)).
Proof. intros t h w k l i b Ht. exact (store_exact t Ht h w k l i b). Qed.
(** A [MapMut] made by [Options::<MapMut>::default()], as it is and after
    having been a [Map] in between. *)
Definition ex_default : list call := [COpen true opt_default 7].
Definition ex_default_world : world := ex_world [Grant 3; Grant 0; Grant 65536; Grant 0; Grant 0; Grant 0].
Example C89_store_case :
  let a := run (t64 true) ex_default (no_maps ex_default_world) in
  let h2 := [COpen true (opt_copy (opt_len (ExtExact 4096) opt_new)) 7] in
  converted (t64 true) ex_default (no_maps ex_default_world) 0 = false /\
  option_map l_mut (a_live a 0) = Some true /\ option_map l_prot (a_live a 0) = Some ReadOnly /\
  fst (step (t64 true) (CSet 0 5 1) a) = Fault /\
  option_map l_mut (a_live (run (t64 true) h2 (no_maps ex_default_world)) 0) = Some true /\
  fst (step (t64 true) (CSet 0 5 1) (run (t64 true) h2 (no_maps ex_default_world))) = Ret SNone /\
  fst (step (t64 true) (CSet 0 4096 1) (run (t64 true) h2 (no_maps ex_default_world))) = Panic.
Proof. vm_compute. auto 10. Qed.
(** A read-only map of a file open for writing, turned into a [MapMut]. *)
Example C89_store_converted :
  let w := ex_world ex_answers in let h := ex_calls ++ [CToMut 2] in let a := run (t64 true) h (no_maps w) in
  option_map l_mut (a_live a 2) = Some true /\ option_map l_prot (a_live a 2) = Some ReadOnly /\
  converted (t64 true) h (no_maps w) 2 = true /\ fst (step (t64 true) (CSet 2 5 1) a) = Ret SNone /\
  converted (t64 true) h (no_maps w) 1 = false.
Proof. vm_compute. auto 10. Qed.
Print Assumptions C89_store.

(** ** Reading a scalar that lies inside a map: panics exactly if the access is
    volatile and misaligned; otherwise it faults exactly if the page of its
    last byte begins at or behind the end of the file. *)
Theorem C89_read : forall t B a k l ty off x, posix_target t -> reached t a -> a_live a k = Some l ->
  0 <= off -> off + size_of t ty <= m_len (l_map l) -> x = ReadVolatile \/ x = ReadUnaligned ->
  fst (perform t B (kernel_mem t) (l_map l) ty off x (a_w a)) =
    if is_volatile x && negb ((m_ptr (l_map l) + off) mod align_of B ty =? 0) then Panic
    else if o_size (w_obj (a_w a) (l_obj l)) <=? t_page t * ((l_off l + off + size_of t ty - 1) / t_page t) then Fault else Ret tt.
Proof.
  intros t B a k l ty off x Ht R L O Le X. apply (map_read_exact t Ht B a k l ty off x (reached_ok t Ht a R) L O Le).
  destruct X as [-> | ->]; exact Logic.I.
Qed.
(** Map 0 after the cut: bytes 8184..8191 are the last that can be read. *)
Example C89_read_case :
  match a_live ex_cut 0 with
  | None => False
  | Some l =>
    let at_ off x := fst (perform (t64 true) x64 (kernel_mem (t64 true)) (l_map l) U64 off x (a_w ex_cut)) in
    at_ 8184 ReadVolatile = Ret tt /\ at_ 8185 ReadUnaligned = Fault /\ at_ 8185 ReadVolatile = Panic /\ at_ 8192 ReadVolatile = Fault
  end.
Proof. vm_compute. auto 10. Qed.
Print Assumptions C89_read.

(** ** Writing a scalar that lies inside a map: panics exactly if the access is
    volatile and misaligned; otherwise it faults exactly if the page of its
    last byte begins at or behind the end of the file, or the map was created
    without a protection for writing and has never been converted. *)
Theorem C89_write : forall t B h w k l ty off v x, posix_target t -> wf w -> Forall (call_ok t) h -> let a := run t h (no_maps w) in
  a_live a k = Some l -> l_mut l = true -> 0 <= off -> off + size_of t ty <= m_len (l_map l) -> x = WriteVolatile v \/ x = WriteUnaligned v ->
  fst (perform t B (kernel_mem t) (l_map l) ty off x (a_w a)) =
    if is_volatile x && negb ((m_ptr (l_map l) + off) mod align_of B ty =? 0) then Panic
    else if (o_size (w_obj (a_w a) (l_obj l)) <=? t_page t * ((l_off l + off + size_of t ty - 1) / t_page t)) ||
            negb (prot_writes (l_prot l) || converted t h (no_maps w) k)
    then Fault else Ret tt.
Proof. intros t B h w k l ty off v x Ht W F a L _. exact (map_write_exact t Ht B h w k l ty off v x W F L). Qed.
(** The map 0 of [C89_read_case] before and after the cut; the [MapMut] of
    [Options::<MapMut>::default()], which was never writable; the map of
    [C89_store_converted]. *)
Example C89_write_case :
  let w := ex_world ex_answers in
  let at_ h w k off x := match a_live (run (t64 true) h (no_maps w)) k with
    | Some l => (l_mut l, fst (perform (t64 true) x64 (kernel_mem (t64 true)) (l_map l) U64 off x (a_w (run (t64 true) h (no_maps w)))))
    | None => (false, Blocked)
    end in
  let cut := ex_calls ++ [COther (OCut 7 4200)] in
  at_ ex_calls w 0 8185 (WriteUnaligned 7) = (true, Ret tt) /\ at_ cut w 0 8184 (WriteVolatile 7) = (true, Ret tt) /\
  at_ cut w 0 8185 (WriteUnaligned 7) = (true, Fault) /\ at_ cut w 0 8185 (WriteVolatile 7) = (true, Panic) /\
  at_ ex_default ex_default_world 0 8 (WriteVolatile 7) = (true, Fault) /\
  at_ (ex_calls ++ [CToMut 2]) w 2 8 (WriteUnaligned 7) = (true, Ret tt).
Proof. vm_compute. auto 10. Qed.
Print Assumptions C89_write.

(** ** Every access to a slice, at every offset, in every build.  [inside]: the
    value ends inside the slice; [slips]: without overflow checks the sum of
    the check wraps round to at most the length, which is the case exactly for
    values that begin at most their own size before the slice; [misplaced]:
    the access is volatile and the address not a multiple of the alignment. *)
Theorem C89_slice : forall t B p n ty off x s, good_target t -> span_ok t {| m_ptr := p; m_len := n |} -> n < 2 ^ (t_bits t - 1) -> is_usize t off ->
  let r := fst (perform t B (slice_mem p n) {| m_ptr := p; m_len := n |} ty off x s) in
  (r = Ret tt <-> inside t n off ty /\ ~ misplaced t B p off ty x) /\
  (r = Fault <-> slips t n off ty /\ ~ misplaced t B p off ty x) /\
  (r = Panic <-> (~ inside t n off ty /\ ~ slips t n off ty) \/ misplaced t B p off ty x).
Proof. intros t B p n ty off x s Ht. exact (slice_exact t Ht B p n ty off x s). Qed.
Example C89_slice_case :
  let at_ c ty off x := fst (perform (t64 c) x64 (slice_mem 1001 20) ex_slice ty off x (fun _ => 0)) in
  span_ok (t64 false) ex_slice /\ slips (t64 false) 20 (2 ^ 64 - 3) U64 /\
  at_ false U64 12 ReadUnaligned = Ret tt /\ at_ false U64 13 ReadUnaligned = Panic /\
  at_ false U64 (2 ^ 64 - 3) ReadUnaligned = Fault /\ at_ true U64 (2 ^ 64 - 3) ReadUnaligned = Panic /\
  at_ false U64 (2 ^ 64 - 9) ReadUnaligned = Panic /\ at_ false U64 (2 ^ 64 - 1) (WriteVolatile 3) = Fault /\
  at_ false U64 (2 ^ 64 - 2) (WriteVolatile 3) = Panic.
Proof. unfold slips, span_ok. split; [cbn; lia|]. split; [vm_compute; intuition discriminate|]. vm_compute. auto 10. Qed.
Print Assumptions C89_slice.

(** ** The sub-range calls without overflow checks, when the end of the range
    does not fit the word: refused exactly if the wrapped end lies behind the
    map; otherwise the system call is made on the pages of a range that begins
    in front of the map.  (When the end fits, and with overflow checks:
    [C16_range_checked_partial], [C17_range_pages].) *)
Theorem C89_range : forall t c k off len op a l, posix_target t -> reached t a -> range_call c = Some (k, off, len, op) -> a_live a k = Some l ->
  (is_flush c = true -> l_mut l = true) -> is_usize t off -> is_usize t len -> t_checks t = false -> 2 ^ t_bits t <= off + len ->
  let start := m_ptr (l_map l) + off - 2 ^ t_bits t in
  (m_len (l_map l) < off + len - 2 ^ t_bits t -> step t c a = (Err {| e_repr := RInput InvalidRange; e_op := op |}, a)) /\
  (off + len - 2 ^ t_bits t <= m_len (l_map l) -> t_page t <= start ->
     exists first n, step t c a = unit_call a (range_sys t c (t_page t * first) (t_page t * n) (a_w a)) /\
       start < m_ptr (l_map l) /\
       t_page t * first <= start < t_page t * (first + 1) /\
       start + len <= t_page t * (first + n) < start + len + t_page t).
Proof.
  intros t c k off len op a l Ht R Hc L F U1 U2 Ck Ge. cbv zeta.
  destruct (range_wraps t Ht c k off len op a l (reached_ok t Ht a R) Hc L F U1 U2 Ck Ge) as [R1 R2]. split; [exact R1|].
  intros Le Lo. destruct (R2 Le Lo) as (first & n & E & X). exists first, n. split; [exact E|]. split; [|exact X]. unfold is_usize in U1. lia.
Qed.
(** Map 1 of [two_maps] has one page, at 69632; page 16 in front of it is map
    0. *)
Example C89_range_case :
  reached (t64 false) two_maps /\ option_map l_map (a_live two_maps 1) = Some {| m_ptr := 69632; m_len := 4096 |} /\
  fst (step (t64 false) (CLockRange 1 (2 ^ 64 - 4096) 4096) two_maps) = Ret SNone /\
  option_map p_lock (w_vm (a_w (snd (step (t64 false) (CLockRange 1 (2 ^ 64 - 4096) 4096) two_maps))) 16) = Some true /\
  option_map p_lock (w_vm (a_w (snd (step (t64 false) (CLockRange 1 (2 ^ 64 - 4096) 4096) two_maps))) 17) = Some false /\
  fst (step (t64 false) (CLockRange 1 (2 ^ 64 - 4096) 8193) two_maps) = Err {| e_repr := RInput InvalidRange; e_op := OpLock |}.
Proof. split; [apply run_reached; [constructor; apply ex_wf|calls_ok]|]. vm_compute. auto 10. Qed.
Print Assumptions C89_range.

(** ** Anonymous maps without overflow checks, when offset and size do not fit
    the word ([alloc_fits] fails): a call that succeeds has mapped exactly one
    page, whatever length was asked for; with an exact or maximal length the
    map claims all of it, with a minimal length it is the rest of that page. *)
Theorem C89_alloc : forall t o w m w', posix_target t -> wf w -> options_ok t o -> t_checks t = false -> ~ alloc_fits t o ->
  alloc t o w = (Ret m, w') ->
  let off := op_offset o mod t_page t in
  match op_len o with
  | ExtEnd => False
  | ExtMin l => 2 ^ t_bits t < off + l /\ m_len m = t_page t - off
  | ExtExact l | ExtMax l => 2 ^ t_bits t < off + l /\ m_len m = l
  end /\
  m_ptr m mod t_page t = off /\ w_vm w (m_ptr m / t_page t) = None /\
  (forall pg, w_vm w' pg = if pg =? m_ptr m / t_page t
     then Some (entry (w_next w) 0 (prot_bits (op_protect o)) (prot_shares (op_protect o)) true) else w_vm w pg) /\
  o_size (w_obj w' (w_next w)) = t_page t /\ (forall i, o_data (w_obj w' (w_next w)) i = 0).
Proof. intros t o w m w' Ht. exact (alloc_wraps t Ht o w m w'). Qed.
Definition wide (e : extent) : options := opt_offset 10 (opt_len e mapmut_with_options).
Example C89_alloc_case :
  let r e := fst (alloc (t64 false) (wide e) (ex_world [Grant 65536])) in
  ~ alloc_fits (t64 false) (wide (ExtMin (2 ^ 64 - 1))) /\ options_ok (t64 false) (wide (ExtMin (2 ^ 64 - 1))) /\
  r (ExtMin (2 ^ 64 - 1)) = Ret {| m_ptr := 65546; m_len := 4086 |} /\
  r (ExtExact (2 ^ 64 - 1)) = Ret {| m_ptr := 65546; m_len := 2 ^ 64 - 1 |} /\
  r (ExtMin (2 ^ 64 - 10)) = Err (last_os_error MapAnonymous EINVAL) /\
  r (ExtMin (2 ^ 64 - 4000)) = Err (last_os_error MapAnonymous EINVAL) /\
  r (ExtExact (2 ^ 64 - 10)) = Err (last_os_error MapAnonymous EINVAL).
Proof.
  split; [vm_compute; intros X; discriminate X|]. split; [vm_compute; intuition discriminate|]. vm_compute. auto 10.
Qed.
Print Assumptions C89_alloc.

(** ** C22: [MapMut::new] gives at least [hint] writable zero bytes, up to the
    end of the allocation unit, in every build: with a hint so large that the
    size wraps it never succeeds. *)
Theorem C22_new : forall t hint w m w', posix_target t -> wf w -> is_usize t hint -> mapmut_new t hint w = (Ret m, w') ->
  hint <= m_len m < hint + t_page t /\ m_len m mod t_page t = 0 /\ m_ptr m mod t_page t = 0 /\
  (forall i b, 0 <= i < m_len m -> map_get t m i w' = (Ret 0, w') /\ fst (map_set t m i b w') = Ret tt).
Proof.
  intros t hint w m w' Ht W U H.
  destruct (Z_lt_le_dec (hint + t_page t) (2 ^ t_bits t)) as [Lt|Ge]; [exact (new_lemma t Ht hint w m w' W U (or_introl Lt) H)|].
  destruct (t_checks t) eqn:Ck; [exact (new_lemma t Ht hint w m w' W U (or_intror Ck) H)|]. exfalso.
  assert (O : options_ok t (opt_len (ExtMin hint) mapmut_with_options)).
  { unfold is_usize in U. unfold options_ok, extent_ok, is_usize. cbn. repeat split; lia. }
  assert (N : ~ alloc_fits t (opt_len (ExtMin hint) mapmut_with_options)) by (unfold alloc_fits; cbn; lia).
  destruct (alloc_wraps t Ht _ _ _ _ W O Ck N H) as [X _]. cbn in X. unfold is_usize in U. lia.
Qed.
Example C22_new_case :
  match mapmut_new (t64 true) 5000 (ex_world [Grant 65536]) with
  | (Ret m, w') => m = {| m_ptr := 65536; m_len := 8192 |} /\ fst (map_set (t64 true) m 8191 7 w') = Ret tt
  | _ => False end /\
  fst (mapmut_new (t64 false) (2 ^ 64 - 5) (ex_world [Grant 65536])) = Err (last_os_error MapAnonymous EINVAL).
Proof. vm_compute. auto. Qed.
Print Assumptions C22_new.
