(** Property theorems C24 and C25: the scalar accessors of [Span] and
    [SpanMut], on slices and on maps, for every scalar type, alignment table
    and byte order. *)
From Coq Require Import Lia.
From Verif Require Import Base ErrorModel OsModel MapModel MapSpec ApiModel ApiSpec OsProofs MapProofs MapCreate MapOps ApiProofs
  MapClaims MapClaims5 SpanModel SpanSpec SpanProofs SpanMap PropertiesSize PropertiesMap PropertiesMap2.

(** x86-64: every type is aligned to its size. *)
Definition x64 : abi := {| align_of := size_of (t64 true); big_endian := false |}.
(** The same, big endian. *)
Definition be64 : abi := {| align_of := size_of (t64 true); big_endian := true |}.
Example x64_good : good_abi (t64 true) x64.
Proof.
  intros ty. cbn [align_of x64]. split; [|apply Z.divide_refl].
  destruct ty; cbn; [exists 0|exists 0|exists 1|exists 1|exists 2|exists 2|exists 3|exists 3|exists 4|exists 4|exists 3|exists 3|exists 2|exists 3];
    split; (lia || reflexivity).
Qed.
Definition ex_slice : mapping := {| m_ptr := 1001; m_len := 20 |}.

(** ** C24.  Partial: with overflow checks, or when offset + size does not
    reach the word size.  An access outside panics with the memory as it was,
    whatever the memory is. *)
Theorem C24_outside_partial : forall t B S (M : memory S) m ty off x s, good_target t -> is_usize t off -> is_usize t (m_len m) ->
  (off + size_of t ty < 2 ^ t_bits t \/ t_checks t = true) -> m_len m < off + size_of t ty ->
  perform t B M m ty off x s = (Panic, s).
Proof. intros t B S M m ty off x s Ht. exact (outside t Ht B M ty off m x s). Qed.
Example C24_case1 :
  perform (t64 true) x64 (slice_mem 1001 20) ex_slice U64 13 (WriteUnaligned 7) (fun _ => 0) = (Panic, fun _ => 0) /\
  perform (t64 true) x64 (slice_mem 1001 20) ex_slice U64 (2 ^ 64 - 8) ReadVolatile (fun _ => 0) = (Panic, fun _ => 0) /\
  fst (perform (t64 true) x64 (slice_mem 1001 20) ex_slice U64 12 (WriteUnaligned 7) (fun _ => 0)) = Ret tt.
Proof. vm_compute. auto. Qed.
Print Assumptions C24_outside_partial.

(** Exactly when: on a slice and on a live map, an accessor returns or
    panics, and it panics if and only if the value does not lie inside, or the
    access is volatile and not aligned. *)
Theorem C24_slice_partial : forall t B p n ty off x s, good_target t -> span_ok t {| m_ptr := p; m_len := n |} ->
  is_usize t off -> is_usize t n -> (off + size_of t ty < 2 ^ t_bits t \/ t_checks t = true) ->
  let r := fst (perform t B (slice_mem p n) {| m_ptr := p; m_len := n |} ty off x s) in
  (r = Ret tt \/ r = Panic) /\
  (r = Panic <-> n < off + size_of t ty \/ (is_volatile x = true /\ (p + off) mod align_of B ty <> 0)).
Proof.
  intros t B p n ty off x s Ht Sp O N Fit. cbv zeta.
  destruct (slice_access t Ht B p n ty off x s Sp O N Fit) as (s' & ->). cbn [fst].
  destruct (Z.leb_spec (off + size_of t ty) n), (is_volatile x), (Z.eqb_spec ((p + off) mod align_of B ty) 0); cbn [andb orb negb];
    split; auto; split; auto; try discriminate; intros [?|[? ?]]; try discriminate; try lia; contradiction.
Qed.
Print Assumptions C24_slice_partial.
Theorem C24_map_partial : forall t B a k l ty off x, posix_target t ->
  reached_by t (fun c => keeps_length t c /\ asks_write c) a -> a_live a k = Some l ->
  (l_mut l = true \/ match x with WriteVolatile _ | WriteUnaligned _ => False | _ => True end) ->
  is_usize t off -> (off + size_of t ty < 2 ^ t_bits t \/ t_checks t = true) ->
  let r := fst (perform t B (kernel_mem t) (l_map l) ty off x (a_w a)) in
  (r = Ret tt \/ r = Panic) /\
  (r = Panic <-> m_len (l_map l) < off + size_of t ty \/
     (is_volatile x = true /\ (m_ptr (l_map l) + off) mod align_of B ty <> 0)).
Proof.
  intros t B a k l ty off x Ht R Hl Mu O Fit. cbv zeta.
  destruct (map_access t Ht B a k l ty off x (life_reached t Ht _ a (fun c H => proj1 H) R)
    (proj2 (writable_reached t Ht _ a (fun c H => proj2 H) R)) Hl Mu O Fit) as (s' & ->). cbn [fst].
  destruct (Z.leb_spec (off + size_of t ty) (m_len (l_map l))), (is_volatile x), (Z.eqb_spec ((m_ptr (l_map l) + off) mod align_of B ty) 0);
    cbn [andb orb negb]; split; auto; split; auto; try discriminate; intros [?|[? ?]]; try discriminate; try lia; contradiction.
Qed.
(** Map 1 of the example starts at address 131976 and has 3000 bytes. *)
Example C24_case2 :
  match a_live (ex_state true) 1 with
  | None => False
  | Some l => l_mut l = true /\
    let at_ ty off x := fst (perform (t64 true) x64 (kernel_mem (t64 true)) (l_map l) ty off x (a_w (ex_state true))) in
    at_ U64 2992 ReadVolatile = Ret tt /\ at_ U64 2993 ReadUnaligned = Panic /\ at_ U64 2991 ReadUnaligned = Ret tt /\
    at_ U64 2991 ReadVolatile = Panic /\ at_ U32 4 (WriteVolatile 5) = Ret tt /\ at_ U128 0 (WriteVolatile 5) = Panic
  end.
Proof. vm_compute. auto 10. Qed.
Print Assumptions C24_map_partial.
(** A slice or live map is empty exactly when no byte of it can be read. *)
Theorem C24_empty : forall t B p n s, good_target t -> span_ok t {| m_ptr := p; m_len := n |} -> is_usize t n ->
  (is_empty {| m_ptr := p; m_len := n |} = true <->
   forall off, 0 <= off < 2 ^ t_bits t - 1 -> fst (perform t B (slice_mem p n) {| m_ptr := p; m_len := n |} U8 off ReadUnaligned s) = Panic).
Proof.
  intros t B p n s Ht Sp N. unfold is_empty. cbn [m_len]. rewrite Z.eqb_eq.
  assert (K : forall off, 0 <= off < 2 ^ t_bits t - 1 ->
    (fst (perform t B (slice_mem p n) {| m_ptr := p; m_len := n |} U8 off ReadUnaligned s) = Panic <-> n < off + 1)).
  { intros off Ho. destruct (C24_slice_partial t B p n U8 off ReadUnaligned s Ht Sp ltac:(unfold is_usize; lia) N ltac:(left; cbn; lia)) as [_ E].
    rewrite E. cbn [is_volatile size_of]. split; [intros [?|[? _]]; [assumption|discriminate]|auto]. }
  destruct Sp as (_ & Sp & _). cbn [m_len] in Sp. assert (Hb : 1 <= t_bits t) by (destruct Ht as [[-> | ->] _]; lia). split.
  - intros ->. intros off Ho. apply K; lia.
  - intros H. destruct (Z.eq_dec n 0) as [E|E]; [exact E|exfalso].
    assert (2 ^ 1 <= 2 ^ t_bits t) by (apply Z.pow_le_mono_r; lia). specialize (H 0 ltac:(lia)). apply K in H; lia.
Qed.
Theorem C24_map_empty : forall t B a k l, posix_target t ->
  reached_by t (fun c => keeps_length t c /\ asks_write c) a -> a_live a k = Some l ->
  (is_empty (l_map l) = true <->
   forall off, 0 <= off < 2 ^ t_bits t - 1 -> fst (perform t B (kernel_mem t) (l_map l) U8 off ReadUnaligned (a_w a)) = Panic).
Proof.
  intros t B a k l Ht R Hl. unfold is_empty. rewrite Z.eqb_eq.
  assert (K : forall off, 0 <= off < 2 ^ t_bits t - 1 ->
    (fst (perform t B (kernel_mem t) (l_map l) U8 off ReadUnaligned (a_w a)) = Panic <-> m_len (l_map l) < off + 1)).
  { intros off Ho. destruct (C24_map_partial t B a k l U8 off ReadUnaligned Ht R Hl ltac:(right; exact Logic.I) ltac:(unfold is_usize; lia) ltac:(left; cbn; lia)) as [_ E].
    rewrite E. cbn [is_volatile size_of]. split; [intros [?|[? _]]; [assumption|discriminate]|auto]. }
  assert (Sp : 0 <= m_len (l_map l)) by exact (bk_len _ _ _ _ _ _ _ (ok_live _ _ (proj1 (writable_reached t Ht _ a (fun c H => proj2 H) R)) k l Hl)).
  assert (Hb : 1 <= t_bits t) by (destruct Ht as [[[-> | ->] _] _]; lia).
  split.
  - intros E off Ho. apply K; lia.
  - intros H. destruct (Z.eq_dec (m_len (l_map l)) 0) as [E|E]; [exact E|exfalso].
    assert (2 ^ 1 <= 2 ^ t_bits t) by (apply Z.pow_le_mono_r; lia). specialize (H 0 ltac:(lia)). apply K in H; lia.
Qed.
Example C24_case4 : is_empty ex_slice = false /\ is_empty {| m_ptr := 1; m_len := 0 |} = true /\
  fst (perform (t64 true) x64 (slice_mem 1001 20) ex_slice U8 19 ReadUnaligned (fun _ => 0)) = Ret tt /\
  fst (perform (t64 true) x64 (slice_mem 1 0) {| m_ptr := 1; m_len := 0 |} U8 0 ReadUnaligned (fun _ => 0)) = Panic /\
  match a_live (ex_state true) 1 with None => False | Some l => is_empty (l_map l) = false end.
Proof. vm_compute. auto 10. Qed.
Print Assumptions C24_empty.
Print Assumptions C24_map_empty.

(** Without overflow checks the sum wraps for offsets in the last bytes of the
    address space: the check passes and memory outside the span is accessed,
    for every type, span and such offset. *)
Theorem C24_hole_refuted : forall t B p n ty off v s, good_target t -> t_checks t = false -> span_ok t {| m_ptr := p; m_len := n |} ->
  is_usize t off -> n < 2 ^ (t_bits t - 1) -> 2 ^ t_bits t <= off + size_of t ty <= 2 ^ t_bits t + n ->
  n < off + size_of t ty /\
  read_unaligned t B (slice_mem p n) {| m_ptr := p; m_len := n |} ty off s = (Fault, s) /\
  write_unaligned t B (slice_mem p n) {| m_ptr := p; m_len := n |} ty off v s = (Fault, s).
Proof.
  intros t B p n ty off v s Ht Ck Sp O N H. split.
  - assert (2 ^ (t_bits t - 1) <= 2 ^ t_bits t) by (apply Z.pow_le_mono_r; lia). lia.
  - exact (slice_hole t Ht B p n ty off v s Sp O N Ck H).
Qed.
Example C24_case3 : fst (read_unaligned (t64 false) x64 (slice_mem 1001 20) ex_slice U64 (2 ^ 64 - 3) (fun _ => 0)) = Fault.
Proof. vm_compute. reflexivity. Qed.
Print Assumptions C24_hole_refuted.
(** On maps the memory in front can belong to another map: writing a u64 at
    offset 2^64 - 8 of map 1 changes the last bytes of map 0. *)
Theorem C24_wrap_refuted : exists a l, reached (t64 false) a /\ a_live a 1 = Some l /\ m_len (l_map l) = 4096 /\
  let '(r, w') := write_unaligned (t64 false) x64 (kernel_mem (t64 false)) (l_map l) U64 (2 ^ 64 - 8) (2 ^ 64 - 1) (a_w a) in
  r = Ret tt /\ read_at (t64 false) a 0 4095 = Ret (SByte (4095 mod 251)) /\ read_at (t64 false) (set_w a w') 0 4095 = Ret (SByte 255).
Proof.
  exists two_maps.
  exists {| l_map := {| m_ptr := 69632; m_len := 4096 |}; l_mut := true; l_obj := 1; l_off := 0; l_prot := ReadCopy; l_wr := false |}.
  split; [apply run_reached; [constructor; apply ex_wf|calls_ok]|].
  vm_compute. repeat split.
Qed.
Print Assumptions C24_wrap_refuted.

(** ** C25 *)
(** A write to a slice: the bytes of the value, nothing else, and the value
    reads back. *)
Theorem C25_slice_write : forall t B p n ty off v s, good_target t -> span_ok t {| m_ptr := p; m_len := n |} ->
  0 <= off -> off + size_of t ty <= n ->
  exists s', write_unaligned t B (slice_mem p n) {| m_ptr := p; m_len := n |} ty off v s = (Ret tt, s') /\
    (forall a, s' a = if (p + off <=? a) && (a <? p + off + size_of t ty)
                      then byte_of (big_endian B) (size_of t ty) v (a - (p + off)) else s a) /\
    (value_ok (is_signed ty) (size_of t ty) v ->
     read_unaligned t B (slice_mem p n) {| m_ptr := p; m_len := n |} ty off s' = (Ret v, s')).
Proof. intros t B p n ty off v s Ht. exact (slice_write t Ht B p n ty off v s). Qed.
Example C25_case1 :
  let s' := snd (write_unaligned (t64 true) be64 (slice_mem 1001 20) ex_slice I32 3 (-2) (fun _ => 9)) in
  view s' 1003 6 = [9; 255; 255; 255; 254; 9] /\
  fst (read_unaligned (t64 true) be64 (slice_mem 1001 20) ex_slice I32 3 s') = Ret (-2) /\
  fst (read_unaligned (t64 true) be64 (slice_mem 1001 20) ex_slice U32 3 s') = Ret (2 ^ 32 - 2) /\
  fst (read_unaligned (t64 true) x64 (slice_mem 1001 20) ex_slice U16 5 s') = Ret (254 * 256 + 255).
Proof. vm_compute. auto. Qed.
Print Assumptions C25_slice_write.

(** The volatile accessors are the unaligned ones plus the alignment check. *)
Theorem C25_volatile : forall t B S (M : memory S) m ty off s f, good_target t -> span_ok t m ->
  0 <= off -> off + size_of t ty <= m_len m -> content M s m f ->
  ((m_ptr m + off) mod align_of B ty = 0 ->
     read_volatile t B M m ty off s = read_unaligned t B M m ty off s /\
     forall v, write_volatile t B M m ty off v s = write_unaligned t B M m ty off v s) /\
  ((m_ptr m + off) mod align_of B ty <> 0 ->
     read_volatile t B M m ty off s = (Panic, s) /\ forall v, write_volatile t B M m ty off v s = (Panic, s)).
Proof.
  intros t B S M m ty off s f Ht Sp O Le C.
  rewrite (read_volatile_spec t Ht B M m Sp ty off O Le s f C).
  split; intros A; [rewrite A; cbn [Z.eqb]|apply Z.eqb_neq in A; rewrite A]; (split; [reflexivity|]); intros v;
    rewrite (write_volatile_spec t Ht B M m Sp ty off O Le); rewrite A; reflexivity.
Qed.
Example C25_case2 : let s := fun a => a mod 256 in
  fst (read_volatile (t64 true) x64 (slice_mem 1001 20) ex_slice U64 7 s) = fst (read_unaligned (t64 true) x64 (slice_mem 1001 20) ex_slice U64 7 s) /\
  fst (read_volatile (t64 true) x64 (slice_mem 1001 20) ex_slice U64 8 s) = Panic.
Proof. vm_compute. auto. Qed.
Print Assumptions C25_volatile.

(** A read returns the value of the type that has the bytes of the span; there
    is only one such value. *)
Theorem C25_read : forall t B S (M : memory S) m ty off s f, good_target t -> span_ok t m ->
  0 <= off -> off + size_of t ty <= m_len m -> content M s m f -> (forall i, 0 <= i < m_len m -> 0 <= f i < 256) ->
  exists v, read_unaligned t B M m ty off s = (Ret v, s) /\ value_ok (is_signed ty) (size_of t ty) v /\
    forall k, 0 <= k < size_of t ty -> byte_of (big_endian B) (size_of t ty) v k = f (off + k).
Proof. intros t B S M m ty off s f Ht. exact (read_value t Ht B M m ty off s f). Qed.
Print Assumptions C25_read.
Theorem C25_representation : forall t ty be v v', good_target t ->
  value_ok (is_signed ty) (size_of t ty) v -> value_ok (is_signed ty) (size_of t ty) v' ->
  (forall k, 0 <= k < size_of t ty -> byte_of be (size_of t ty) v k = byte_of be (size_of t ty) v' k) -> v = v'.
Proof.
  intros t ty be v v' Ht V V' H. set (B := {| align_of := fun _ => 1; big_endian := be |}).
  assert (E : encode t B ty v = encode t B ty v').
  { apply (nth_ext _ _ 0 0); [rewrite !encode_length; reflexivity|]. intros n Hn. rewrite encode_length in Hn.
    rewrite <- (Nat2Z.id n). rewrite !encode_nth by lia. apply H. lia. }
  rewrite <- (decode_encode t Ht B ty v V), <- (decode_encode t Ht B ty v' V'), E. reflexivity.
Qed.
Example C25_case3 : byte_of true 4 (-2) 3 = 254 /\ byte_of false 4 (-2) 3 = 255 /\ byte_of false 8 (2 ^ 56 * 17 + 5) 7 = 17.
Proof. vm_compute. auto. Qed.
Print Assumptions C25_representation.

(** A write through a live map: it is the run of its single-byte stores (so
    the state reached is one of a program history again), the value reads
    back, the other bytes of the map stay; through a shared map the file
    changes in exactly these bytes, through a private one no file and no other
    map changes. *)
Theorem C25_map_write : forall t B a k l ty off v, posix_target t ->
  reached_by t (fun c => keeps_length t c /\ asks_write c) a -> a_live a k = Some l -> l_mut l = true ->
  0 <= off -> off + size_of t ty <= m_len (l_map l) ->
  exists w', write_unaligned t B (kernel_mem t) (l_map l) ty off v (a_w a) = (Ret tt, w') /\
    reached_by t (fun c => keeps_length t c /\ asks_write c) (set_w a w') /\
    (value_ok (is_signed ty) (size_of t ty) v ->
     read_unaligned t B (kernel_mem t) (l_map l) ty off w' = (Ret v, w')) /\
    (forall i, 0 <= i < m_len (l_map l) -> read_at t (set_w a w') k i =
       if (off <=? i) && (i <? off + size_of t ty) then Ret (SByte (byte_of (big_endian B) (size_of t ty) v (i - off)))
       else read_at t a k i) /\
    (if l_shared l then
       w_vm w' = w_vm (a_w a) /\
       forall o j, o_data (w_obj w' o) j =
         if (o =? l_obj l) && (l_off l + off <=? j) && (j <? l_off l + off + size_of t ty)
         then byte_of (big_endian B) (size_of t ty) v (j - (l_off l + off)) else o_data (w_obj (a_w a) o) j
     else w_obj w' = w_obj (a_w a) /\ forall k' i', k' <> k -> read_at t (set_w a w') k' i' = read_at t a k' i').
Proof.
  intros t B a k l ty off v Ht R Hl Hm O Le.
  destruct (map_write t Ht B a k l ty off v (life_reached t Ht _ a (fun c H => proj1 H) R)
    (proj2 (writable_reached t Ht _ a (fun c H => proj2 H) R)) Hl Hm O Le) as (w' & E & Run & Rest).
  exists w'. split; [exact E|]. split; [|exact Rest]. rewrite <- Run.
  generalize (place off (encode t B ty v)) as s. intros s. apply run_reached_by; [exact R| |];
    induction s as [|[i b] s IH]; cbn [stores]; constructor; cbn; auto.
Qed.
Example C25_case4 :
  match a_live (ex_state true) 0, a_live (ex_state true) 1 with
  | Some l0, Some l1 =>
    let '(r, w') := write_unaligned (t64 true) x64 (kernel_mem (t64 true)) (l_map l0) U32 5001 305419896 (a_w (ex_state true)) in
    l_shared l0 = true /\ r = Ret tt /\
    view (o_data (w_obj w' 1)) 5000 6 = [5000 mod 251; 120; 86; 52; 18; 5005 mod 251] /\
    (* map 1 shows the same file from 5000 on *)
    fst (read_unaligned (t64 true) x64 (kernel_mem (t64 true)) (l_map l1) U32 1 w') = Ret 305419896
  | _, _ => False
  end.
Proof. vm_compute. auto. Qed.
Print Assumptions C25_map_write.
