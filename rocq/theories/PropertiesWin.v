(** Property theorems C32, C33, C61-C64: src/os/windows.rs.

    [calls s s' l]: the Win32 calls made from [s] to [s'], newest first, each
    with whether it succeeded.  [failed_release l]: the kernel refused a
    VirtualFree or UnmapViewOfFile among them; their results are ignored by the
    code.  [same_rest]: handles, files and earlier memory objects are as
    before; [same_space]: pages, views and reservations are.  The answers of
    the kernel and the pages taken by other threads before every call are
    arbitrary. *)
From Coq Require Import Lia.
From Verif Require Import Base Spec ErrorModel OsModel MapModel MapSpec RingMapModel RingMapSpec MirrorProofs
  WinModel WinSpec WinProofs WinClaims WinRetry WinCalls PropertiesSize PropertiesMap.

(** 64 KiB allocation granularity, 4 KiB pages. *)
Definition twin (c : bool) : target := {| t_bits := 64; t_checks := c; t_page := 4096; t_alloc := 65536 |}.
Lemma twin_good c : good_target (twin c).
Proof. repeat split; cbn; auto; try lia; [exists 12|exists 16]; split; (lia || reflexivity). Qed.
(** File 7 of [ex_world] is open as 3 (for writing) and 4. *)
Definition ex_win (env : list (Z -> bool)) (q : list answer) : win :=
  {| n_w := {| w_vm := w_vm (ex_world q); w_obj := w_obj (ex_world q); w_next := 2; w_fs := w_fs (ex_world q); w_orc := q;
               w_fd := fun fd => if fd =? 3 then Some {| fd_obj := 1; fd_w := true |}
                                 else if fd =? 4 then Some {| fd_obj := 1; fd_w := false |} else None |};
     n_sec := fun _ => None; n_view := fun _ => None; n_resv := fun _ => None; n_cache := fun _ _ => 0;
     n_env := env; n_log := []; n_last := 0 |}.

(** ** C32.  Any kernel and any interference: *)
Theorem C32_allocation : forall t len s r s', good_target t -> known_objects s -> is_usize t len ->
  win_map_ring t len s = (r, s') ->
  exists l, calls s s' l /\ (attempts l <= 6)%nat /\ same_rest s s' /\
  match r with
  | Ret pg => (exists h, closed_last l h) /\ 0 < len /\ pg mod t_alloc t = 0 /\
      n_view s' pg = Some (len / t_page t) /\ n_view s' (pg + len) = Some (len / t_page t) /\
      (failed_release l \/ (two_views_added t s s' pg len /\ mirrored t (n_w s') pg len (fun _ => 0)))
  | Err e => (failed_release l \/ same_space s s') /\ (l = [(WCreate, false)] \/ exists h, closed_last l h) /\
      exists op c, ring_stage op /\ e = last_os_error op c /\ (op = RingAllocate \/ attempts l = 6%nat)
  | Panic => t_checks t = true /\ 2 ^ t_bits t <= 2 * len /\ s' = s
  | _ => False
  end.
Proof.
  intros t len s r s' Ht K Hl H. pose proof (SizeProofs.pow2_pos _ (proj1 (proj2 Ht))) as HP.
  destruct (win_map_ring_spec t Ht len s r s' Hl H) as (l & L & A & R & M). exists l. split; [exact L|]. split; [exact A|]. split; [exact R|].
  destruct r as [pg|e| | |]; try contradiction.
  - destruct M as ((n & -> & W) & C). split; [exact C|]. pose proof W as [W1 W2 W3 W4 W5 W6 [W7 W8] W9 W10 W11 W12].
    split; [nia|]. split; [exact W2|]. rewrite (Z.mul_comm (t_page t) n), Z.div_mul, (Z.mul_comm n) by lia.
    split; [exact W7|]. split; [exact W8|].
    destruct W11 as [W11|(B1 & B2 & B3 & _ & B4)]; [left; exact W11|right].
    pose proof (aligned_page t Ht _ W2) as M.
    assert (In : forall p, pg <= t_page t * p < pg + 2 * (t_page t * n) <-> pg / t_page t <= p < pg / t_page t + 2 * n).
    { intros p. pose proof (page_in t Ht pg n (t_page t * p) W1 M) as J.
      rewrite (Z.mul_comm (t_page t) p), Z.div_mul, (Z.mul_comm p) in J by lia. rewrite J. reflexivity. }
    split.
    + split; [intros p Hp; apply B1, In, Hp|intros p Hp; apply B2; intros J; apply Hp, In, J|exact B3|exact B4].
    + apply (ringed_mirrored t Ht _ _ _ (w_next (n_w s))). split; try assumption.
      * intros k Hk. eexists. split; [exact (W6 k Hk)|]. cbn. auto 10.
      * intros p e He Ho. destruct (Z.le_gt_cases (pg / t_page t) p) as [X|X]; [destruct (Z.lt_ge_cases p (pg / t_page t + 2 * n)) as [Y|Y]; [lia|]|];
          rewrite B2 in He by lia; apply K in He; lia.
      * intros i _. apply W10.
  - destruct M as (M1 & op & x & M2 & M3 & M4 & M5). split; [exact M1|]. split; [exact M5|]. exists op, x. auto.
  - exact M.
Qed.
(** Another thread takes a page of the second half twice, just before it is
    mapped; the third attempt goes through and the ring is mirrored. *)
Definition takes (q : Z) : list (Z -> bool) := [fun _ => false; fun _ => false; fun _ => false; fun p => p =? q; fun _ => false].
Definition ex_race : win :=
  ex_win ((fun _ => false) :: takes 33 ++ takes 65)
    [Grant 88; Grant 65536; Grant 0; Grant 0; Grant 0; Grant 0; Grant 196608; Grant 0; Grant 0; Grant 0; Grant 0; Grant 327680; Grant 0; Grant 0; Grant 0].
Example C32_case : known_objects ex_race /\
  let '(r, s') := win_map_ring (twin true) 65536 ex_race in
  r = Ret 327680 /\ attempts (n_log s') = 3%nat /\ n_sec s' 88 = None /\ n_view s' 65536 = None /\ n_view s' 393216 = Some 16 /\
  let '(x, w2) := put_all (twin true) 327680 [(70000, 9); (5, 8)] (n_w s') in
  x = Ret tt /\ load (E:=error) (twin true) w2 (327680 + 70000 - 65536) = Ret 9 /\ load (E:=error) (twin true) w2 (327680 + 65536 + 5) = Ret 8.
Proof. split; [discriminate|]. vm_compute. auto 10. Qed.
Print Assumptions C32_allocation.

(** Up to five lost attempts are made good by the next one; six lost attempts
    are the error of the last. *)
Theorem C32_retry : forall t len s h rs d q, good_target t -> (t_alloc t | len) -> 0 < len < 2 ^ (t_bits t - 1) ->
  n_sec s h = None -> 0 < h -> n_env s = [] -> Forall (fun r => place t s len (lost_at r)) rs ->
  (forall pg x y z, (length rs <= 5)%nat -> place t s len pg ->
     w_orc (n_w s) = Grant h :: flat_map lost_answers rs ++ Grant pg :: Grant x :: Grant y :: Grant z :: q ->
     fst (win_map_ring t len s) = Ret pg) /\
  (length rs = 6%nat -> w_orc (n_w s) = Grant h :: flat_map lost_answers rs ++ q ->
     fst (win_map_ring t len s) = Err (lost_error (last rs d)) /\ w_orc (n_w (snd (win_map_ring t len s))) = q).
Proof.
  intros t len s h rs d q Ht Hd Hl Hs Hh He Hr.
  destruct (Z.divide_trans _ _ _ (page_divides_alloc t Ht) Hd) as (n & ->). rewrite (Z.mul_comm n) in *.
  destruct (map_ring_go t Ht n s h Hl Hd Hs Hh rs d q Hr) as [A B]. split.
  - intros pg x y z L Hp Ho. apply (A pg x y z L Hp). split; assumption.
  - intros L Ho. destruct (B L) as [B1 [B2 _]]; [split; assumption|]. split; assumption.
Qed.
Definition ex_lost (k : nat) : list lost := firstn k
  [LostFirst 65536 0 487; LostSecond 196608 0 0 487 0; LostFirst 65536 0 8; LostSecond 65536 0 0 8 0; LostFirst 196608 0 487; LostSecond 65536 0 0 5 0].
Example C32_case2 :
  let s k := ex_win [] (Grant 88 :: flat_map lost_answers (ex_lost k) ++ [Grant 131072; Grant 0; Grant 0; Grant 0]) in
  Forall (fun r => place (twin true) (s 6%nat) 65536 (lost_at r)) (ex_lost 6) /\
  map (fun k => fst (win_map_ring (twin true) 65536 (s k))) [0; 2; 5; 6]%nat =
    [Ret 131072; Ret 131072; Ret 131072; Err (last_os_error RingSecondary 5)].
Proof. split; [repeat constructor; cbn; (lia || discriminate)|]. vm_compute. reflexivity. Qed.
Print Assumptions C32_retry.

(** ** C33 is false: the result of os::unmap is the opposite of what happened.
    What holds, for every outcome: *)
Theorem C33_inverted : forall t pg len s r s', win_unmap t pg len s = (r, s') ->
  match r with
  | Ret _ => calls s s' [(WUnmap pg, false)] /\ same_space s s'
  | Err e => calls s s' [(WUnmap pg, true)] /\ view_removed t s s' pg /\ exists c, e = last_os_error Unmap c
  | _ => False
  end.
Proof. exact win_unmap_spec. Qed.
Print Assumptions C33_inverted.
(** A mapped view of the file, as made by map_file. *)
Definition ex_view (q : list answer) : win := snd (win_map_file (twin true) 3 0 5000 ReadWrite (ex_win [] (Grant 88 :: Grant 65536 :: q))).
Theorem C33_unmap_refuted : exists s1 s2,
  n_view s1 65536 = Some 2 /\ n_view s2 65536 = Some 2 /\
  (let '(r, s') := win_unmap (twin true) 65536 5000 s1 in
   r = Err (last_os_error Unmap 0) /\ n_view s' 65536 = None /\ w_vm (n_w s') 16 = None) /\
  (let '(r, s') := win_unmap (twin true) 65536 5000 s2 in
   r = Ret tt /\ n_view s' 65536 = Some 2 /\ w_vm (n_w s') 16 <> None).
Proof. exists (ex_view [Grant 0]), (ex_view [Refuse 487]). vm_compute. intuition discriminate. Qed.
Print Assumptions C33_unmap_refuted.

(** ** C61.  [view_of t s s' o off L p pg]: exactly one view was added, at
    [pg], of the [L] bytes of object [o] from [off] on, with the protection
    [p] asks for. *)
Theorem C61_map_file : forall t fd off len p s r s', good_target t -> is_usize t off ->
  win_map_file t fd off len p s = (r, s') ->
  exists l, calls s s' l /\ same_rest s s' /\
  match r with
  | Ret pg => exists f h, l = [(WClose h, true); (WMap 0, true); (WCreate, true)] /\ w_fd (n_w s) fd = Some f /\
      (p = ReadWrite -> fd_w f = true) /\ off mod t_alloc t = 0 /\
      let size := o_size (w_obj (n_w s) (fd_obj f)) in
      let L := if len =? 0 then size - off else len in
      off + L <= size /\ view_of t s s' (fd_obj f) off L p pg
  | Err e => same_space s s' /\ exists op x, e = last_os_error op x /\
      (op = MapFileHandle /\ l = [(WCreate, false)] \/
       op = MapFileView /\ exists h, l = [(WClose h, true); (WMap 0, false); (WCreate, true)])
  | _ => False
  end.
Proof.
  intros t fd off len p s r s' Ht Ho H. destruct (win_map_file_spec t Ht fd off len p s r s' Ho H) as (l & A & B & _ & C). eauto.
Qed.
Example C61_case : let '(r, s') := win_map_file (twin true) 3 0 5000 ReadWrite (ex_win [] [Grant 88; Grant 65536]) in
  r = Ret 65536 /\ load (E:=error) (twin true) (n_w s') (65536 + 4999) = Ret (4999 mod 251) /\ n_sec s' 88 = None /\
  fst (win_map_file (twin true) 4 0 5000 ReadWrite (ex_win [] [Grant 88; Grant 65536])) = Err (last_os_error MapFileHandle 5) /\
  fst (win_map_file (twin true) 3 4096 5000 ReadOnly (ex_win [] [Grant 88; Grant 65536])) = Err (last_os_error MapFileView 1132).
Proof. vm_compute. auto 10. Qed.
Print Assumptions C61_map_file.

Theorem C61_map_anon : forall t len p s r s', good_target t -> is_usize t len ->
  win_map_anon t len p s = (r, s') ->
  exists l, calls s s' l /\ same_rest s s' /\
  match r with
  | Ret pg => exists h, l = [(WClose h, true); (WMap 0, true); (WCreate, true)] /\
      view_of t s s' (w_next (n_w s)) 0 len p pg /\
      (forall i, o_data (w_obj (n_w s') (w_next (n_w s))) i = 0) /\ len <= o_size (w_obj (n_w s') (w_next (n_w s)))
  | Err e => same_space s s' /\ exists op x, e = last_os_error op x /\
      (op = MapAnonymousHandle /\ l = [(WCreate, false)] \/
       op = MapAnonymousView /\ exists h, l = [(WClose h, true); (WMap 0, false); (WCreate, true)])
  | _ => False
  end.
Proof. intros t len p s r s' Ht. exact (win_map_anon_spec t Ht len p s r s'). Qed.
Example C61_case2 : let '(r, s') := win_map_anon (twin true) 9000 ReadWrite (ex_win [] [Grant 88; Grant 131072]) in
  r = Ret 131072 /\ load (E:=error) (twin true) (n_w s') (131072 + 8999) = Ret 0 /\ n_view s' 131072 = Some 3 /\
  fst (win_map_anon (twin true) 0 ReadWrite (ex_win [] [Grant 88; Grant 131072])) = Err (last_os_error MapAnonymousHandle 87).
Proof. vm_compute. auto 10. Qed.
Print Assumptions C61_map_anon.

(** ** C62.  A synchronous flush that returns Ok: every byte of the file shown
    by a shared page meeting the range is on storage as it was in memory, and
    the rest of the file there is what was handed to the file system earlier
    or is in memory.  Nothing visible in memory changes, whatever the
    outcome. *)
Theorem C62_flush : forall t a fd len mode s r s', good_target t -> 0 <= a -> 0 < len -> win_flush t a fd len mode s = (r, s') ->
  memory_kept s s' /\
  match r with
  | Ret _ => (forall p, a / t_page t <= p <= (a + len - 1) / t_page t -> exists e, w_vm (n_w s) p = Some e) /\
      match mode with
      | FlushAsync => (forall o, w_obj (n_w s') o = w_obj (n_w s) o) /\ calls s s' [(WFlushView a, true)]
      | FlushSync => exists f, w_fd (n_w s) fd = Some f /\ fd_w f = true /\ calls s s' [(WFlushFile fd, true); (WFlushView a, true)] /\
          (forall p e i, a / t_page t <= p <= (a + len - 1) / t_page t -> w_vm (n_w s) p = Some e -> p_shared e = true ->
             p_obj e = fd_obj f -> p_idx e = i / t_page t ->
             o_disk (w_obj (n_w s') (fd_obj f)) i = o_data (w_obj (n_w s) (fd_obj f)) i) /\
          (forall i, o_disk (w_obj (n_w s') (fd_obj f)) i = o_data (w_obj (n_w s) (fd_obj f)) i \/
             o_disk (w_obj (n_w s') (fd_obj f)) i = n_cache s (fd_obj f) i) /\
          (forall o, o <> fd_obj f -> w_obj (n_w s') o = w_obj (n_w s) o)
      end
  | Err e => (forall o, w_obj (n_w s') o = w_obj (n_w s) o) /\ exists c, e = last_os_error OpFlush c
  | _ => False
  end.
Proof. intros t a fd len mode s r s' Ht. exact (win_flush_spec t Ht a fd len mode s r s'). Qed.
(** Byte 4200 is stored and its page flushed.  With the read-only descriptor
    the flush is refused. *)
Example C62_case : let s := ex_view [Grant 0; Grant 0] in
  let s := with_w s (snd (store (E:=error) (twin true) (65536 + 4200) 77 (n_w s))) in
  let '(r, s') := win_flush (twin true) (65536 + 4096) 3 904 FlushSync s in
  r = Ret tt /\ o_disk (w_obj (n_w s) 1) 4200 = 4200 mod 251 /\ o_disk (w_obj (n_w s') 1) 4200 = 77 /\
  fst (win_flush (twin true) (65536 + 4096) 4 904 FlushSync s) = Err (last_os_error OpFlush 5).
Proof. vm_compute. auto. Qed.
Print Assumptions C62_flush.

(** ** C63: dropping rings. *)
Theorem C63_unmap_ring : forall t pg n s r s', good_target t -> 0 < n -> pg mod t_page t = 0 -> 0 <= pg -> pg + t_page t * n < 2 ^ t_bits t ->
  n_view s pg = Some n -> n_view s (pg + t_page t * n) = Some n ->
  win_unmap_ring t pg (t_page t * n) s = (r, s') ->
  match r with
  | Ret _ => exists b, calls s s' [(WUnmap pg, b); (WUnmap (pg + t_page t * n), true)] /\
      (forall p, w_vm (n_w s') p =
         if in_pages (pg / t_page t + n) n p || (b && in_pages (pg / t_page t) n p) then None else w_vm (n_w s) p) /\
      (forall a, n_view s' a = if (a =? pg + t_page t * n) || (b && (a =? pg)) then None else n_view s a)
  | Err e => calls s s' [(WUnmap (pg + t_page t * n), false)] /\ same_space s s' /\ exists c, e = last_os_error RingDeallocate c
  | _ => False
  end.
Proof.
  intros t pg n s r s' Ht H1 H2 H3 H4 H5 H6 H. exact (proj2 (proj2 (win_unmap_ring_spec t Ht pg n s r s' H1 H2 H3 H4 H5 H6 H))).
Qed.
Definition ex_ring (q : list answer) : win :=
  snd (win_map_ring (twin true) 65536 (ex_win [] ([Grant 88; Grant 131072; Grant 0; Grant 0; Grant 0] ++ q))).
Example C63_case : n_view (ex_ring []) 131072 = Some 16 /\ n_view (ex_ring []) (131072 + 4096 * 16) = Some 16 /\
  (let '(r, s') := win_unmap_ring (twin true) 131072 65536 (ex_ring [Grant 0; Grant 0]) in
   r = Ret tt /\ n_view s' 131072 = None /\ n_view s' 196608 = None /\ w_vm (n_w s') 32 = None) /\
  (let '(r, s') := win_unmap_ring (twin true) 131072 65536 (ex_ring [Grant 0; Refuse 487]) in
   r = Ret tt /\ n_view s' 131072 = Some 16 /\ n_view s' 196608 = None).
Proof. vm_compute. auto 10. Qed.
Print Assumptions C63_unmap_ring.

(** Created, written to and dropped: everything is as before, unless the kernel
    refused to release something. *)
Theorem C63_create_drop : forall t hint l s a s1, good_target t -> known_objects s -> is_usize t hint ->
  win_ring_new t hint s = (Ret a, s1) -> Forall (fun x => 0 <= fst x < 2 * ra_len a) l ->
  is_ceil (t_alloc t) hint (ra_len a) /\
  ((exists k, calls s s1 k /\ failed_release k) \/
   let '(r2, w2) := put_all t (ra_ptr a) l (n_w s1) in
   let '(r3, s3) := win_ring_drop t a (with_w s1 w2) in
   r2 = Ret tt /\ r3 = Ret tt /\ same_rest s s3 /\ exists k, calls s1 s3 k /\ (failed_release k \/ same_space s s3)).
Proof.
  intros t hint l s a s1 Ht K Hh H F. split; [exact (proj1 (win_ring_new_spec t Ht hint s a s1 Hh H))|].
  exact (win_life t Ht hint l s a s1 K Hh H F).
Qed.
Example C63_case2 :
  let s := ex_win [] [Grant 88; Grant 131072; Grant 0; Grant 0; Grant 0; Grant 0; Grant 0] in
  let '(r, s1) := win_ring_new (twin true) 70000 s in
  let '(r3, s3) := win_ring_drop (twin true) {| ra_ptr := 131072; ra_len := 131072 |} s1 in
  r = Ret {| ra_ptr := 131072; ra_len := 131072 |} /\ n_view s1 262144 = Some 32 /\ r3 = Ret tt /\
  n_view s3 131072 = None /\ n_view s3 262144 = None /\ map (w_vm (n_w s3)) [32; 63; 64; 95] = [None; None; None; None].
Proof. vm_compute. auto 10. Qed.
Print Assumptions C63_create_drop.

(** ** C64: protect, lock, unlock, advise. *)
Theorem C64_protect : forall t a len p s r s', good_target t -> 0 <= a -> win_protect t a len p s = (r, s') ->
  other_state s s' /\
  match r with
  | Ret _ => 0 < len /\ pages_changed t (set_prot (win_prot p)) s s' a len
  | Err e => same_space s s' /\ exists c, e = last_os_error OpProtect c
  | _ => False
  end.
Proof. intros t a len p s r s' Ht. exact (win_protect_spec t Ht a len p s r s'). Qed.
Print Assumptions C64_protect.
Theorem C64_lock : forall t a len s r s', good_target t -> 0 <= a ->
  (win_lock t a len s = (r, s') -> other_state s s' /\
   match r with
   | Ret _ => 0 < len /\ pages_changed t (set_lock true) s s' a len
   | Err e => same_space s s' /\ exists c, e = last_os_error OpLock c
   | _ => False
   end) /\
  (win_unlock t a len s = (r, s') -> other_state s s' /\
   match r with
   | Ret _ => 0 < len /\ pages_changed t (set_lock false) s s' a len
   | Err e => same_space s s' /\ exists c, e = last_os_error OpUnlock c
   | _ => False
   end).
Proof.
  intros t a len s r s' Ht Ha. split; [exact (win_lock_spec t Ht a len s r s' Ha)|exact (win_unlock_spec t Ht a len s r s' Ha)].
Qed.
Example C64_case : let s := ex_view [Grant 0; Grant 0; Grant 0] in
  let '(r1, s1) := win_lock (twin true) (65536 + 4000) 97 s in
  let '(r2, s2) := win_protect (twin true) (65536 + 4096) 904 ReadOnly s1 in
  let '(r3, s3) := win_unlock (twin true) 65536 100 s2 in
  r1 = Ret tt /\ r2 = Ret tt /\ r3 = Ret tt /\
  map (fun p => option_map (fun e => (p_w e, p_lock e)) (w_vm (n_w s3) p)) [16; 17; 18] = [Some (true, false); Some (false, true); None].
Proof. vm_compute. auto. Qed.
Print Assumptions C64_lock.
