(** Property theorems C06-C17: mapping files, writing through maps,
    conversions, dropping, sub-ranges.

    [reached t a]: [a] is the state after any history of calls (of any length,
    on any number of files and maps) from any well-formed kernel state without
    maps, against any sequence of kernel answers. *)
From Coq Require Import Lia.
From Verif Require Import Base ErrorModel OsModel MapModel MapSpec ApiModel ApiSpec
  OsProofs MapProofs MapCreate MapOps ApiProofs MapClaims MapClaims2 MapClaims4 PropertiesSize.

(** ** A concrete program: file 7 is 10000 bytes long; it is opened for
    writing (map 0), mapped again privately (map 1, bytes 5000..8000) and
    read-only (map 2, bytes 100..300); map 3 is anonymous. *)
Definition ex_world (q : list answer) : world :=
  {| w_vm := fun _ => None;
     w_obj := fun o => if o =? 1 then {| o_size := 10000; o_data := fun i => i mod 251; o_disk := fun i => i mod 251 |}
                       else {| o_size := 0; o_data := fun _ => 0; o_disk := fun _ => 0 |};
     w_next := 2; w_fd := fun _ => None; w_fs := fun p => if p =? 7 then Some 1 else None; w_orc := q |}.
Definition ex_answers : list answer :=
  [Grant 3; Grant 0; Grant 65536; Grant 0; Grant 131072; Grant 0; Grant 196608; Grant 262144; Grant 0; Grant 0; Grant 0; Grant 0].
Definition ex_calls : list call :=
  [COpen true mapmut_with_options 7;
   CMap true (opt_copy (opt_offset 5000 (opt_len (ExtExact 3000) opt_new))) 3;
   CMap false (opt_offset 100 (opt_len (ExtMax 200) opt_new)) 3;
   CAlloc true (opt_len (ExtMin 100) mapmut_with_options)].
Definition ex_state (c : bool) : api := run (t64 c) ex_calls (no_maps (ex_world ex_answers)).

Lemma t64_posix c : posix_target (t64 c).
Proof. split; [|reflexivity]. repeat split; cbn; auto; try lia; exists 12; split; (lia || reflexivity). Qed.
Lemma ex_wf q : wf (ex_world q).
Proof.
  split; cbn; try discriminate.
  - intros path o. destruct (path =? 7); [|discriminate]. intros H. injection H as <-. lia.
  - intros o. destruct (o =? 1); cbn; lia.
Qed.
Lemma run_reached t h : forall a, reached t a -> Forall (call_ok t) h -> reached t (run t h a).
Proof. induction h as [|c h IH]; cbn; intros a R F; [exact R|]. inversion F; subst. apply IH; [constructor|]; assumption. Qed.
Ltac calls_ok :=
  repeat (apply Forall_cons; [vm_compute; intuition discriminate|]); apply Forall_nil.
Lemma ex_reached c : reached (t64 c) (ex_state c).
Proof.
  unfold ex_state. apply run_reached; [constructor; apply ex_wf|].
  calls_ok.
Qed.
Example ex_state_is : match a_live (ex_state true) 0, a_live (ex_state true) 1, a_live (ex_state true) 2, a_live (ex_state true) 3 with
  | Some l0, Some l1, Some l2, Some l3 =>
      l_map l0 = {| m_ptr := 65536; m_len := 10000 |} /\ l_map l1 = {| m_ptr := 131976; m_len := 3000 |} /\
      l_map l2 = {| m_ptr := 196708; m_len := 200 |} /\ l_map l3 = {| m_ptr := 262144; m_len := 4096 |} /\
      l_shared l0 = true /\ l_shared l1 = false /\ l_shared l2 = true /\ l_mut l1 = true /\ l_mut l2 = false
  | _, _, _, _ => False end.
Proof. vm_compute. auto 10. Qed.

(** ** C06.  [L]: what becomes of the length the crate read from the file,
    [as usize], under truncate and resize. *)
Theorem C06_extent : forall t o fd f w w' r, posix_target t -> wf w -> options_ok t o -> w_fd w fd = Some f ->
  map_if t o fd w = (r, w') ->
  let L := final_len (op_truncate o) (op_resize o) (o_size (w_obj w (fd_obj f)) mod 2 ^ t_bits t) in
  match r with
  | Ret (Some m) => ~ out_of_file (op_len o) (op_offset o) L /\ right_len (op_len o) (op_offset o) L (m_len m)
  | Ret None => out_of_file (op_len o) (op_offset o) L
  | Err e => e_op e = MapFile
  | _ => False
  end.
Proof. intros t o fd f w w' r Ht. exact (extent_lemma t Ht o fd f w w' r). Qed.
Print Assumptions C06_extent.

(** With lengths that fit the word (all lengths, on 64 bits), [L] is the
    length after truncate and resize. *)
Theorem C06_extent_fits : forall t o fd f w w' r, posix_target t -> wf w -> options_ok t o -> w_fd w fd = Some f ->
  t_bits t = 64 \/ is_usize t (o_size (w_obj w (fd_obj f))) ->
  map_if t o fd w = (r, w') ->
  let L := final_len (op_truncate o) (op_resize o) (o_size (w_obj w (fd_obj f))) in
  match r with
  | Ret (Some m) => ~ out_of_file (op_len o) (op_offset o) L /\ right_len (op_len o) (op_offset o) L (m_len m)
  | Ret None => out_of_file (op_len o) (op_offset o) L
  | Err e => e_op e = MapFile
  | _ => False
  end.
Proof.
  intros t o fd f w w' r Ht W O F B E. pose proof (extent_lemma t Ht o fd f w w' r W O F E) as H.
  rewrite Z.mod_small in H; [exact H|]. destruct B as [B|B]; [rewrite B; apply wf_size, W|exact B].
Qed.
Print Assumptions C06_extent_fits.

(** Nothing but the kernel stands in the way: when it grants the calls, the
    answer is decided by offset, extent and length alone. *)
Theorem C06_decided : forall t o fd f w a q, posix_target t -> wf w -> options_ok t o -> w_fd w fd = Some f ->
  is_usize t (o_size (w_obj w (fd_obj f))) ->
  (op_truncate o = true \/ op_resize o <> ExtEnd \/ op_protect o = ReadWrite -> fd_w f = true) ->
  (forall n, op_resize o = ExtExact n \/ op_resize o = ExtMin n \/ op_resize o = ExtMax n -> n < 2 ^ 63) ->
  op_offset o < 2 ^ (t_bits t - 1) ->
  w_orc w = Grant a :: Grant a :: Grant a :: Grant a :: q ->
  let L := final_len (op_truncate o) (op_resize o) (o_size (w_obj w (fd_obj f))) in
  (out_of_file (op_len o) (op_offset o) L -> exists w', map_if t o fd w = (Ret None, w')) /\
  (~ out_of_file (op_len o) (op_offset o) L -> forall n, right_len (op_len o) (op_offset o) L n ->
    (op_offset o mod t_page t + n = 0 -> exists w', map_if t o fd w = (Err (last_os_error MapFile EINVAL), w')) /\
    (0 < op_offset o mod t_page t + n ->
     range_ok t a (op_offset o mod t_page t + n) = true ->
     (forall p, a / t_page t <= p < a / t_page t + npages t (op_offset o mod t_page t + n) -> w_vm w p = None) ->
     exists w', map_if t o fd w = (Ret (Some {| m_ptr := ptr_add t a (op_offset o mod t_page t); m_len := n |}), w'))).
Proof. intros t o fd f w a q Ht. exact (map_grant t Ht o fd f w a q). Qed.
Print Assumptions C06_decided.
Definition ex_open (q : list answer) : world := snd (file_open (t64 true) (op_open mapmut_with_options) 7 (ex_world (Grant 3 :: q))).
Example C06_case :
  let w := ex_open [Grant 65536; Grant 65536; Grant 65536; Grant 65536] in
  let len o := match map_if (t64 true) o 3 w with (Ret (Some m), _) => Some (m_len m) | (Ret None, _) => None | _ => Some (-1) end in
  w_fd w 3 = Some {| fd_obj := 1; fd_w := true |} /\
  len (opt_offset 5000 opt_new) = Some 5000 /\ len (opt_offset 5000 (opt_len (ExtMin 5000) opt_new)) = Some 5000 /\
  len (opt_offset 5000 (opt_len (ExtExact 17) opt_new)) = Some 17 /\ len (opt_offset 9990 (opt_len (ExtMax 17) opt_new)) = Some 10 /\
  len (opt_offset 5000 (opt_len (ExtExact 5001) opt_new)) = None /\ len (opt_offset 10001 opt_new) = None /\
  len (opt_resize (ExtMin 20000) (opt_offset 10001 mapmut_with_options)) = Some 9999.
Proof. vm_compute. auto 20. Qed.

(** The last case of [C06_decided] at work: the empty rest of a file whose
    length is a multiple of the page size is an OS error, not a map. *)
Example C06_empty_rest : fst (map_if (t64 true) (opt_resize (ExtExact 4096) (opt_offset 4096 mapmut_with_options)) 3
    (ex_open [Grant 65536; Grant 65536; Grant 65536; Grant 65536])) = Err (last_os_error MapFile EINVAL).
Proof. vm_compute. reflexivity. Qed.

(** On 32 bits the length of a file above 4 GiB is truncated: a map "until
    the end of the file" of a file of 4 GiB + 10 bytes has 10 bytes. *)
Theorem C06_wide_file_refuted : exists w w' m, wf w /\
  w_fd w 3 = Some {| fd_obj := 1; fd_w := false |} /\ o_size (w_obj w 1) = 2 ^ 32 + 10 /\
  map_if (t32 true) opt_new 3 w = (Ret (Some m), w') /\ m_len m = 10.
Proof.
  exists {| w_vm := fun _ => None; w_obj := fun o => {| o_size := if o =? 1 then 2 ^ 32 + 10 else 0; o_data := fun _ => 0; o_disk := fun _ => 0 |};
     w_next := 2; w_fd := fun fd => if fd =? 3 then Some {| fd_obj := 1; fd_w := false |} else None; w_fs := fun _ => None;
     w_orc := [Grant 0; Grant 65536] |}.
  eexists. eexists. split; [|split; [reflexivity|split; [reflexivity|split; [vm_compute; reflexivity|reflexivity]]]].
  split; cbn; try discriminate.
  - intros fd f. destruct (fd =? 3) eqn:E; [|discriminate]. apply Z.eqb_eq in E. intros H. injection H as <-. cbn. lia.
  - intros o. destruct (o =? 1); cbn; lia.
Qed.
Print Assumptions C06_wide_file_refuted.

(** ** C07 *)
Theorem C07_shows_file : forall t o fd f w w' m i, posix_target t -> wf w -> options_ok t o -> w_fd w fd = Some f ->
  map_if t o fd w = (Ret (Some m), w') -> 0 <= i < m_len m ->
  op_offset o + i < o_size (w_obj w' (fd_obj f)) /\
  map_get t m i w' = (Ret (o_data (w_obj w' (fd_obj f)) (op_offset o + i)), w').
Proof. intros t o fd f w w' m i Ht W O F E Hi. exact (shows_lemma t Ht o fd f w w' _ W O F E m eq_refl i Hi). Qed.
Example C07_case :
  match map_if (t64 true) (opt_offset 5000 opt_new) 3 (ex_open [Grant 0; Grant 65536]) with
  | (Ret (Some m), w') => m_len m = 5000 /\ fst (map_get (t64 true) m 4000 w') = Ret (9000 mod 251)
  | _ => False end.
Proof. vm_compute. auto. Qed.
Print Assumptions C07_shows_file.

(** ** C08 *)
Theorem C08_map_agrees : forall t o fd w,
  map_ t o fd w =
  match map_if t o fd w with
  | (Ret (Some m), w') => (Ret m, w')
  | (Ret None, w') => (Err {| e_repr := RInput InvalidRange; e_op := MapFile |}, w')
  | (Err e, w') => (Err e, w')
  | (Panic, w') => (Panic, w')
  | (Fault, w') => (Fault, w')
  | (Blocked, w') => (Blocked, w')
  end.
Proof. exact map_agrees. Qed.
Print Assumptions C08_map_agrees.
(** [open] also closes the file that [open_if] hands out with [None]. *)
Theorem C08_open_agrees : forall t o path w,
  open_ t o path w =
  match open_if t o path w with
  | (Ret (Some m, fd), w') => (Ret (m, fd), w')
  | (Ret (None, fd), w') => (Err {| e_repr := RInput InvalidRange; e_op := MapFile |}, set_fd w' (put (w_fd w') fd None))
  | (Err e, w') => (Err e, w')
  | (Panic, w') => (Panic, w')
  | (Fault, w') => (Fault, w')
  | (Blocked, w') => (Blocked, w')
  end.
Proof. exact open_agrees. Qed.
Example C08_case :
  fst (map_ (t64 true) (opt_offset 10001 opt_new) 3 (ex_open [Grant 0])) = Err {| e_repr := RInput InvalidRange; e_op := MapFile |} /\
  fst (map_if (t64 true) (opt_offset 10001 opt_new) 3 (ex_open [Grant 0])) = Ret None.
Proof. vm_compute. auto. Qed.
Print Assumptions C08_open_agrees.

(** ** C09 *)
Theorem C09_file_length : forall t o fd f w w' r, posix_target t -> wf w -> options_ok t o -> w_fd w fd = Some f ->
  is_usize t (o_size (w_obj w (fd_obj f))) ->
  map_if t o fd w = (Ret r, w') ->
  let x := w_obj w (fd_obj f) in let x' := w_obj w' (fd_obj f) in
  let L := final_len (op_truncate o) (op_resize o) (o_size x) in
  o_size x' = L /\
  (forall i, 0 <= i < L -> o_data x' i = if i <? kept_len (op_truncate o) (op_resize o) (o_size x) then o_data x i else 0).
Proof.
  intros t o fd f w w' r Ht W O F U E.
  destruct (file_len_lemma t Ht o fd f w w' _ W O F E (fun e H => ltac:(discriminate H)) U) as (A & B & C).
  rewrite A in B, C. cbv zeta. auto.
Qed.
Print Assumptions C09_file_length.
Theorem C09_other_files : forall t o fd f w w' r x, posix_target t -> wf w -> options_ok t o -> w_fd w fd = Some f ->
  map_if t o fd w = (r, w') -> x <> fd_obj f -> w_obj w' x = w_obj w x.
Proof. intros t o fd f w w' r x Ht W O F E. exact (others_lemma t Ht o fd f w w' r W O F E x). Qed.
Example C09_case :
  match map_if (t64 true) (opt_resize (ExtMin 12000) (opt_offset 9000 mapmut_with_options)) 3
          (ex_open [Grant 0; Grant 0; Grant 65536]) with
  | (Ret _, w') => o_size (w_obj w' 1) = 12000 /\ o_data (w_obj w' 1) 9999 = 9999 mod 251 /\ o_data (w_obj w' 1) 10000 = 0
  | _ => False end /\
  match map_if (t64 true) (opt_resize (ExtExact 5) (opt_truncate true mapmut_with_options)) 3
          (ex_open [Grant 0; Grant 0; Grant 0; Grant 65536]) with
  | (Ret _, w') => o_size (w_obj w' 1) = 5 /\ o_data (w_obj w' 1) 3 = 0
  | _ => False end.
Proof. vm_compute. auto 10. Qed.
Print Assumptions C09_other_files.

(** ** C10 *)
Theorem C10_write_through : forall t a k l i b a', posix_target t -> reached t a -> a_live a k = Some l ->
  l_mut l = true -> l_shared l = true ->
  0 <= i < m_len (l_map l) -> l_off l + i < o_size (w_obj (a_w a) (l_obj l)) ->
  step t (CSet k i b) a = (Ret SNone, a') ->
  a_live a' = a_live a /\ w_vm (a_w a') = w_vm (a_w a) /\ w_fd (a_w a') = w_fd (a_w a) /\ w_fs (a_w a') = w_fs (a_w a) /\
  (forall o, o_size (w_obj (a_w a') o) = o_size (w_obj (a_w a) o) /\ o_disk (w_obj (a_w a') o) = o_disk (w_obj (a_w a) o)) /\
  (forall o j, o_data (w_obj (a_w a') o) j =
     if (o =? l_obj l) && (j =? l_off l + i) then b else o_data (w_obj (a_w a) o) j).
Proof. intros t a k l i b a' Ht R. exact (write_through t Ht a k l i b a' (reached_ok t Ht a R)). Qed.
Print Assumptions C10_write_through.
Theorem C10_seen_by_sharers : forall t a k l i b a' k' l' i', posix_target t -> reached t a -> a_live a k = Some l ->
  l_mut l = true -> l_shared l = true ->
  0 <= i < m_len (l_map l) -> l_off l + i < o_size (w_obj (a_w a) (l_obj l)) ->
  step t (CSet k i b) a = (Ret SNone, a') ->
  a_live a k' = Some l' -> l_shared l' = true ->
  0 <= i' < m_len (l_map l') -> l_off l' + i' < o_size (w_obj (a_w a) (l_obj l')) ->
  read_at t a' k' i' = if (l_obj l' =? l_obj l) && (l_off l' + i' =? l_off l + i) then Ret (SByte b) else read_at t a k' i'.
Proof. intros t a k l i b a' k' l' i' Ht R. exact (write_seen t Ht a k l i b a' k' l' i' (reached_ok t Ht a R)). Qed.
Example C10_case : let a := ex_state true in let a' := snd (step (t64 true) (CSet 0 150 77) a) in
  fst (step (t64 true) (CSet 0 150 77) a) = Ret SNone /\
  read_at (t64 true) a 2 50 = Ret (SByte 150) /\ read_at (t64 true) a' 2 50 = Ret (SByte 77) /\
  read_at (t64 true) a' 2 51 = Ret (SByte 151) /\ o_data (w_obj (a_w a') 1) 150 = 77.
Proof. vm_compute. auto 10. Qed.
Print Assumptions C10_seen_by_sharers.

(** ** C11: one store, and any list of stores *)
Theorem C11_copy_private : forall t a k l i b r a', posix_target t -> reached t a -> a_live a k = Some l ->
  l_mut l = true -> l_shared l = false -> step t (CSet k i b) a = (r, a') ->
  a_live a' = a_live a /\ w_obj (a_w a') = w_obj (a_w a) /\
  (forall k' i', k' <> k -> read_at t a' k' i' = read_at t a k' i') /\
  (r = Ret SNone -> forall i', 0 <= i' < m_len (l_map l) -> l_off l + i' < o_size (w_obj (a_w a) (l_obj l)) ->
     read_at t a' k i' = if i' =? i then Ret (SByte b) else read_at t a k i').
Proof. intros t a k l i b r a' Ht R. exact (copy_private t Ht a k l i b r a' (reached_ok t Ht a R)). Qed.
Print Assumptions C11_copy_private.
Theorem C11_copy_history : forall t k l s a, posix_target t -> reached t a -> a_live a k = Some l ->
  l_mut l = true -> l_shared l = false ->
  let a' := run t (stores k s) a in
  a_live a' = a_live a /\ w_obj (a_w a') = w_obj (a_w a) /\
  (forall k' i', k' <> k -> read_at t a' k' i' = read_at t a k' i').
Proof.
  intros t k l s a Ht R L M S. destruct (copy_history t Ht k l s a (reached_ok t Ht a R) L M S) as (_ & A & B & C). auto.
Qed.
Example C11_case : let a := ex_state true in let a' := run (t64 true) (stores 1 [(0, 1); (2999, 2)]) a in
  read_at (t64 true) a' 1 0 = Ret (SByte 1) /\ read_at (t64 true) a' 1 2999 = Ret (SByte 2) /\
  read_at (t64 true) a' 0 5000 = Ret (SByte (5000 mod 251)) /\ o_data (w_obj (a_w a') 1) 5000 = 5000 mod 251.
Proof. vm_compute. auto 10. Qed.
Print Assumptions C11_copy_history.

(** ** C12.  [l_maxw l]: the map is private, or its file was open for writing. *)
Theorem C12_into_map_mut : forall t a k l r a', posix_target t -> reached t a -> a_live a k = Some l -> l_mut l = false ->
  step t (CToMut k) a = (r, a') ->
  (forall k' i, read_at t a' k' i = read_at t a k' i) /\
  match r with
  | Ret _ => l_maxw l = true /\ a_live a' k = Some (set_mut l true) /\
             (forall p e, own_page t (l_map l) p -> w_vm (a_w a') p = Some e -> p_w e = true /\ p_x e = false)
  | Err e => e_op e = OpProtect /\ a_live a' = a_live a /\ quiet (a_w a) (a_w a')
  | _ => False
  end /\
  (forall x q, w_orc (a_w a) = Grant x :: q -> r = Ret SNone <-> l_maxw l = true).
Proof. intros t a k l r a' Ht R. exact (to_mut_lemma t Ht a k l r a' (reached_ok t Ht a R)). Qed.
(** Map 2 of the example can be made writable; the same map of a file opened
    for reading cannot. *)
Example C12_case :
  fst (step (t64 true) (CToMut 2) (ex_state true)) = Ret SNone /\
  let a := run (t64 true) [COpen false opt_new 7] (no_maps (ex_world [Grant 3; Grant 0; Grant 65536; Grant 0])) in
  fst (step (t64 true) (CToMut 0) a) = Err (last_os_error OpProtect EACCES) /\
  read_at (t64 true) (snd (step (t64 true) (CToMut 0) a)) 0 9 = Ret (SByte 9).
Proof. vm_compute. auto. Qed.
Print Assumptions C12_into_map_mut.

(** ** C13.  Address, length and content stay; but the pages are left
    writable, in every case. *)
Theorem C13_into_map_partial : forall t a k l r a', posix_target t -> reached t a -> a_live a k = Some l -> l_mut l = true ->
  step t (CToMap k) a = (r, a') ->
  (forall k' i, read_at t a' k' i = read_at t a k' i) /\
  match r with
  | Ret _ => a_live a' k = Some (set_mut l false)
  | Err e => e_op e = OpProtect /\ a_live a' = a_live a /\ quiet (a_w a) (a_w a')
  | _ => False
  end.
Proof.
  intros t a k l r a' Ht R L M E. destruct (to_map_lemma t Ht a k l r a' (reached_ok t Ht a R) L M E) as (A & B).
  split; [exact A|]. destruct r; tauto.
Qed.
Print Assumptions C13_into_map_partial.
Theorem C13_read_only_refuted : forall t a k l s a', posix_target t -> reached t a -> a_live a k = Some l -> l_mut l = true ->
  step t (CToMap k) a = (Ret s, a') ->
  forall p, own_page t (l_map l) p -> exists e, w_vm (a_w a') p = Some e /\ p_w e = true.
Proof.
  intros t a k l s a' Ht R L M E. destruct (to_map_lemma t Ht a k l _ a' (reached_ok t Ht a R) L M E) as (_ & _ & B). exact B.
Qed.
Example C13_case : let a' := snd (step (t64 true) (CToMap 0) (ex_state true)) in
  fst (step (t64 true) (CToMap 0) (ex_state true)) = Ret SNone /\
  match a_live a' 0, w_vm (a_w a') 17 with Some l, Some e => l_mut l = false /\ p_w e = true | _, _ => False end.
Proof. vm_compute. auto. Qed.
Print Assumptions C13_read_only_refuted.

(** ** C14 *)
Theorem C14_drop_partial : forall t a k l r a' x q, posix_target t -> reached t a -> a_live a k = Some l ->
  step t (CDrop k) a = (r, a') -> w_orc (a_w a) = Grant x :: q -> 0 < m_len (l_map l) ->
  r = Ret SNone /\ a_live a' k = None /\ same_files (a_w a) (a_w a') /\
  (forall p, w_vm (a_w a') p =
     if in_pages (first_page t (l_map l)) (page_count t (l_map l)) p then None else w_vm (a_w a) p).
Proof.
  intros t a k l r a' x q Ht R L E Q N. destruct (drop_lemma t Ht a k l r a' x q (reached_ok t Ht a R) L E Q) as (A & B & C & D & _).
  auto.
Qed.
Print Assumptions C14_drop_partial.
(** Mapping a file and dropping the map: the address space is as before (up to
    private copies that the map call's truncation discarded) ... *)
Theorem C14_map_drop_partial : forall t o fd w m w1 r w2 x q, posix_target t -> wf w -> options_ok t o ->
  map_if t o fd w = (Ret (Some m), w1) -> 0 < m_len m -> w_orc w1 = Grant x :: q -> drop_map t m w1 = (r, w2) ->
  same_shape w w2 /\ w_fd w2 = w_fd w.
Proof. intros t o fd w m w1 r w2 x q Ht. exact (map_drop t Ht o fd w m w1 r w2 x q). Qed.
Print Assumptions C14_map_drop_partial.
(** ... and likewise for anonymous maps. *)
Theorem C14_alloc_drop_partial : forall t o w m w1 r w2 x q, posix_target t -> wf w -> options_ok t o ->
  alloc_fits t o \/ t_checks t = true ->
  alloc t o w = (Ret m, w1) -> 0 < m_len m -> w_orc w1 = Grant x :: q -> drop_map t m w1 = (r, w2) ->
  (forall p, w_vm w2 p = w_vm w p) /\ w_fd w2 = w_fd w.
Proof. intros t o w m w1 r w2 x q Ht. exact (alloc_drop t Ht o w m w1 r w2 x q). Qed.
Example C14_case : let a := ex_state true in let a' := snd (step (t64 true) (CDrop 1) a) in
  w_vm (a_w a) 32 <> None /\ w_vm (a_w a') 32 = None /\ w_vm (a_w a') 16 <> None /\ w_vm (a_w a') 48 <> None.
Proof. vm_compute. repeat split; discriminate. Qed.
Print Assumptions C14_alloc_drop_partial.
(** A map of length 0 at an unaligned offset occupies a page that dropping it
    leaves behind. *)
Theorem C14_empty_map_refuted : exists a l, reached (t64 true) a /\ a_live a 0 = Some l /\ m_len (l_map l) = 0 /\
  let '(r, a') := step (t64 true) (CDrop 0) a in
  r = Ret SNone /\ a_live a' 0 = None /\ w_vm (a_w a') 16 <> None.
Proof.
  exists (run (t64 true) [COpen false (opt_offset 5 (opt_len (ExtExact 0) opt_new)) 7] (no_maps (ex_world [Grant 3; Grant 0; Grant 65536; Grant 0]))).
  exists {| l_map := {| m_ptr := 65541; m_len := 0 |}; l_mut := false; l_obj := 1; l_off := 5; l_prot := ReadOnly; l_wr := false |}.
  split; [apply run_reached; [constructor; apply ex_wf|calls_ok]|].
  vm_compute. repeat split. discriminate.
Qed.
Print Assumptions C14_empty_map_refuted.
(** This happens for every such map. *)
Theorem C14_empty_map_leaks : forall t a k l r a' x q, posix_target t -> reached t a -> a_live a k = Some l ->
  step t (CDrop k) a = (r, a') -> w_orc (a_w a) = Grant x :: q -> m_len (l_map l) = 0 ->
  w_vm (a_w a') = w_vm (a_w a) /\ exists p e, own_page t (l_map l) p /\ w_vm (a_w a') p = Some e.
Proof.
  intros t a k l r a' x q Ht R L E Q N. destruct (drop_lemma t Ht a k l r a' x q (reached_ok t Ht a R) L E Q) as (A & B & C & _ & D).
  auto.
Qed.
Print Assumptions C14_empty_map_leaks.

(** ** C15.  Partial: [call_ok] excludes calls whose [off + len] (sub-ranges)
    or size (alloc) overflows the word without overflow checks; see
    [C16_wrap_refuted]. *)
Theorem C15_disjoint_partial : forall t a k1 k2 l1 l2 p, posix_target t -> reached t a ->
  a_live a k1 = Some l1 -> a_live a k2 = Some l2 -> k1 <> k2 ->
  own_page t (l_map l1) p -> own_page t (l_map l2) p -> False.
Proof. intros t a k1 k2 l1 l2 p Ht R. exact (ok_apart t a (reached_ok t Ht a R) k1 k2 l1 l2 p). Qed.
Print Assumptions C15_disjoint_partial.
Theorem C15_others_partial : forall t c a r a' k l, posix_target t -> reached t a -> call_ok t c -> step t c a = (r, a') ->
  a_live a k = Some l -> subject c <> Some k ->
  a_live a' k = Some l /\
  forall p e, own_page t (l_map l) p -> w_vm (a_w a) p = Some e ->
    exists e', w_vm (a_w a') p = Some e' /\ unmoved e e' /\
      (p_copy e' = p_copy e \/ (p_copy e' = None /\ p_shared e = false)).
Proof. intros t c a r a' k l Ht R. exact (step_others t Ht c a r a' k l (reached_ok t Ht a R)). Qed.
(** With overflow checks nothing is excluded but arguments that are not
    machine words. *)
Theorem C15_call_ok_checked : forall t c, t_checks t = true ->
  match c with
  | COpen _ o _ | CMap _ o _ | CAlloc _ o => options_ok t o
  | CFlushRange _ off len _ | CAdviseRange _ off len _ | CLockRange _ off len | CUnlockRange _ off len =>
      is_usize t off /\ is_usize t len
  | COther e => other_ok e
  | _ => True
  end -> call_ok t c.
Proof. intros t c C H. destruct c; cbn in *; auto; tauto. Qed.
Example C15_case : reached (t64 false) (ex_state false) /\
  let a := ex_state false in let a' := run (t64 false) [CDrop 1; CLockRange 0 4096 1; CToMap 0] a in
  read_at (t64 false) a' 2 0 = Ret (SByte 100) /\ read_at (t64 false) a' 3 0 = Ret (SByte 0).
Proof. split; [apply ex_reached|]. vm_compute. auto. Qed.
Print Assumptions C15_others_partial.

(** ** C16 *)
Theorem C16_range_checked_partial : forall t c k off len op a l, posix_target t -> reached t a ->
  range_call c = Some (k, off, len, op) -> a_live a k = Some l -> (is_flush c = true -> l_mut l = true) ->
  is_usize t off -> is_usize t len -> off + len < 2 ^ t_bits t \/ t_checks t = true ->
  (m_len (l_map l) < off + len -> off + len < 2 ^ t_bits t ->
     step t c a = (Err {| e_repr := RInput InvalidRange; e_op := op |}, a)) /\
  (2 ^ t_bits t <= off + len -> step t c a = (Panic, a)) /\
  (off + len <= m_len (l_map l) -> fst (step t c a) <> Err {| e_repr := RInput InvalidRange; e_op := op |}).
Proof. intros t c k off len op a l Ht R. exact (range_checked t Ht c k off len op a l (reached_ok t Ht a R)). Qed.
Example C16_case :
  fst (step (t64 true) (CLockRange 1 2000 1001) (ex_state true)) = Err {| e_repr := RInput InvalidRange; e_op := OpLock |} /\
  fst (step (t64 true) (CLockRange 1 2000 1000) (ex_state true)) = Ret SNone /\
  fst (step (t64 true) (CLockRange 1 (2 ^ 64 - 1) 1) (ex_state true)) = Panic.
Proof. vm_compute. auto. Qed.
Print Assumptions C16_range_checked_partial.
(** Without overflow checks: two one-page maps, B just below A; a sub-range of
    A that starts 2^64 - 4096 bytes into it is accepted and works on B: its
    private changes are thrown away. *)
Definition two_maps : api := run (t64 false)
  [COpen true (opt_copy (opt_len (ExtExact 4096) opt_new)) 7; CMap true (opt_copy (opt_len (ExtExact 4096) opt_new)) 3;
   CSet 0 9 200]
  (no_maps (ex_world [Grant 3; Grant 0; Grant 65536; Grant 0; Grant 69632; Grant 0])).
Theorem C16_wrap_refuted : exists a l, reached (t64 false) a /\ a_live a 1 = Some l /\ m_len (l_map l) = 4096 /\
  let '(r, a') := step (t64 false) (CAdviseRange 1 (2 ^ 64 - 4096) 4096 AdvWillNotNeed) a in
  r = Ret SNone /\ read_at (t64 false) a 0 9 = Ret (SByte 200) /\ read_at (t64 false) a' 0 9 = Ret (SByte 9).
Proof.
  exists two_maps.
  exists {| l_map := {| m_ptr := 69632; m_len := 4096 |}; l_mut := true; l_obj := 1; l_off := 0; l_prot := ReadCopy; l_wr := false |}.
  split; [apply run_reached; [constructor; apply ex_wf|calls_ok]|].
  vm_compute. repeat split.
Qed.
Print Assumptions C16_wrap_refuted.

(** ** C17.  [range_sys t c addr n]: the system call of [c] on that range. *)
Theorem C17_range_pages : forall t c k off len op a l, posix_target t -> reached t a ->
  range_call c = Some (k, off, len, op) -> a_live a k = Some l -> (is_flush c = true -> l_mut l = true) ->
  is_usize t off -> is_usize t len -> off + len <= m_len (l_map l) ->
  exists first n,
    step t c a = unit_call a (range_sys t c (t_page t * first) (t_page t * n) (a_w a)) /\
    t_page t * first <= m_ptr (l_map l) + off /\
    m_ptr (l_map l) + off + len <= t_page t * (first + n) /\
    (forall p, first <= p < first + n -> own_page t (l_map l) p) /\
    (0 < len -> forall p, first <= p < first + n -> meets t p (m_ptr (l_map l) + off) len) /\
    (len = 0 -> n <= 1).
Proof.
  intros t c k off len op a l Ht R C L F U1 U2 B.
  destruct (range_pages t Ht c k off len op a l (reached_ok t Ht a R) C L U1 U2 B) as (first & n & E & H).
  exists first, n. split; [|exact H]. rewrite (step_range t c k off len op a l C L F), E. reflexivity.
Qed.
Print Assumptions C17_range_pages.
(** Whole-map operations pass exactly the pages of the map. *)
Theorem C17_whole_pages : forall t a k l f, posix_target t -> reached t a -> a_live a k = Some l ->
  whole t (l_map l) f (a_w a) = f (t_page t * first_page t (l_map l)) (t_page t * page_count t (l_map l)) (a_w a) /\
  t_page t * first_page t (l_map l) <= m_ptr (l_map l) /\
  m_ptr (l_map l) + m_len (l_map l) <= t_page t * (first_page t (l_map l) + page_count t (l_map l)).
Proof. intros t a k l f Ht R. exact (whole_pages t Ht a k l f (reached_ok t Ht a R)). Qed.
(** Bytes 4000..4200 of map 0 lie on pages 16 and 17 and page 18 is not
    touched. *)
Example C17_case : let a' := snd (step (t64 true) (CLockRange 0 4000 200) (ex_state true)) in
  option_map p_lock (w_vm (a_w a') 16) = Some true /\ option_map p_lock (w_vm (a_w a') 17) = Some true /\
  option_map p_lock (w_vm (a_w a') 18) = Some false.
Proof. vm_compute. auto. Qed.
Print Assumptions C17_whole_pages.
