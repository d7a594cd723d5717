(** * Properties C65-C70: maps and rings on Windows

    Theorems about src/map.rs and src/ring.rs over src/os/windows.rs, and about
    all histories of calls to them.  The proofs are in WinMapClaims.v and
    WinMapClaims2.v, the words used in WinMapSpec.v. *)
From Coq Require Import Lia.
From Verif Require Import Base Spec ErrorModel SizeModel OsModel MapModel MapSpec RingMapModel RingMapSpec SizeProofs OsProofs PropertiesMap
  WinModel WinSpec PropertiesWin WinMapModel WinMapSpec WinThings WinMapClaims WinMapClaims2.

(** ** C65: making a map.  The length follows the extent asked for, as on the
    other systems (C06). *)
Theorem C65_extent : forall t o fd f s s' r, good_target t -> wf (n_w s) -> options_ok t o -> w_fd (n_w s) fd = Some f ->
  wmap_if t o fd s = (r, s') ->
  let L := final_len (op_truncate o) (op_resize o) (o_size (w_obj (n_w s) (fd_obj f)) mod 2 ^ t_bits t) in
  match r with
  | Ret (Some m) => ~ out_of_file (op_len o) (op_offset o) L /\ right_len (op_len o) (op_offset o) L (m_len m)
  | Ret None => out_of_file (op_len o) (op_offset o) L
  | Err e => e_op e = MapFile \/ (~ out_of_file (op_len o) (op_offset o) L /\ (e_op e = MapFileHandle \/ e_op e = MapFileView))
  | _ => False
  end.
Proof. intros t o fd f s s' r Ht. exact (wextent t Ht o fd f s s' r). Qed.
Print Assumptions C65_extent.

(** The file is resized as asked for, and no other object that existed
    changes. *)
Theorem C65_file : forall t o fd f s s' r, good_target t -> wf (n_w s) -> options_ok t o -> w_fd (n_w s) fd = Some f ->
  wmap_if t o fd s = (r, s') ->
  (forall o', o' < w_next (n_w s) -> o' <> fd_obj f -> w_obj (n_w s') o' = w_obj (n_w s) o') /\
  ((forall e, r <> Err e) -> is_usize t (o_size (w_obj (n_w s) (fd_obj f))) ->
   o_size (w_obj (n_w s') (fd_obj f)) = final_len (op_truncate o) (op_resize o) (o_size (w_obj (n_w s) (fd_obj f))) /\
   (forall i, 0 <= i < o_size (w_obj (n_w s') (fd_obj f)) -> o_data (w_obj (n_w s') (fd_obj f)) i =
      if i <? kept_len (op_truncate o) (op_resize o) (o_size (w_obj (n_w s) (fd_obj f))) then o_data (w_obj (n_w s) (fd_obj f)) i else 0)).
Proof.
  intros t o fd f s s' r Ht W O F H. split.
  - exact (wothers t Ht o fd f s s' r W O F H).
  - exact (wfile_len t Ht o fd f s s' r W O F H).
Qed.
Print Assumptions C65_file.

(** Exactly one view is added, where nothing was mapped; it starts at a
    multiple of the allocation granularity and contains the map; no handle and
    no reservation stays.  Without a map nothing is added. *)
Theorem C65_space : forall t o fd f s s' r, good_target t -> wf (n_w s) -> options_ok t o -> w_fd (n_w s) fd = Some f ->
  wmap_if t o fd s = (r, s') ->
  (forall h, n_sec s' h = n_sec s h) /\ (forall a, n_resv s' a = n_resv s a) /\
  match r with
  | Ret (Some m) => exists n, 0 < n /\
      (forall a, n_view s' a = if a =? map_base t m then Some n else n_view s a) /\
      (forall p, in_view t (map_base t m) n p -> w_vm (n_w s) p = None) /\
      (forall p, w_vm (n_w s') p <> None <-> in_view t (map_base t m) n p \/ w_vm (n_w s) p <> None) /\
      map_base t m <= m_ptr m /\ m_ptr m + m_len m <= map_base t m + t_page t * n /\
      m_ptr m mod t_alloc t = op_offset o mod t_alloc t
  | _ => (forall a, n_view s' a = n_view s a) /\ (forall p, w_vm (n_w s') p <> None <-> w_vm (n_w s) p <> None)
  end.
Proof. intros t o fd f s s' r Ht. exact (wspace t Ht o fd f s s' r). Qed.
Print Assumptions C65_space.

(** The map shows the file; stores are possible with [ReadWrite] and
    [ReadCopy], and fault otherwise. *)
Theorem C65_shows : forall t o fd f s s' m i b, good_target t -> wf (n_w s) -> options_ok t o -> w_fd (n_w s) fd = Some f ->
  wmap_if t o fd s = (Ret (Some m), s') -> 0 <= i < m_len m ->
  op_offset o + i < o_size (w_obj (n_w s') (fd_obj f)) /\
  wget t m i s' = (Ret (o_data (w_obj (n_w s') (fd_obj f)) (op_offset o + i)), s') /\
  fst (wset t m i b s') = (if prot_writes (op_protect o) then Ret tt else Fault) /\
  (op_protect o = ReadWrite -> fd_w f = true).
Proof.
  intros t o fd f s s' m i b Ht W O F H Hi.
  destruct (wshows t Ht o fd f s s' _ W O F H m eq_refl i Hi) as [A B]. destruct (wstores t Ht o fd f s s' _ W O F H m eq_refl) as [C D]. auto.
Qed.
(** File 7 has 10000 bytes, byte [i] is [i mod 251]; the map starts in the
    middle of an allocation unit. *)
Example C65_case :
  let s := ex_win [] [Grant 0; Grant 88; Grant 131072] in
  match wmap_if (twin true) (opt_len (ExtExact 3000) (opt_offset 5000 mapmut_with_options)) 3 s with
  | (Ret (Some m), s') => m = {| m_ptr := 131072 + 5000; m_len := 3000 |} /\ n_view s' 131072 = Some 2 /\ n_sec s' 88 = None /\
      fst (wget (twin true) m 2999 s') = Ret (7999 mod 251) /\ fst (wset (twin true) m 2999 1 s') = Ret tt
  | _ => False end /\
  fst (wmap_if (twin true) (opt_offset 10001 opt_new) 3 s) = Ret None /\
  fst (wmap_if (twin true) mapmut_with_options 4 s) = Err (last_os_error MapFileHandle 5).
Proof. vm_compute. auto 10. Qed.
Print Assumptions C65_shows.

(** Anonymous maps: zeros, of the promised length, in a view of their own. *)
Theorem C65_alloc : forall t o s r s', good_target t -> wf (n_w s) -> options_ok t o -> walloc_fits t o \/ t_checks t = true ->
  walloc t o s = (r, s') ->
  same_rest s s' /\ (forall a, n_resv s' a = n_resv s a) /\
  match r with
  | Ret m => walloc_fits t o /\ walloc_len t o (m_len m) /\
      (forall i, 0 <= i < m_len m -> wget t m i s' = (Ret 0, s')) /\
      (forall i b, 0 <= i < m_len m -> fst (wset t m i b s') = (if prot_writes (op_protect o) then Ret tt else Fault)) /\
      (exists n, 0 < n /\
        (forall a, n_view s' a = if a =? map_base t m then Some n else n_view s a) /\
        (forall p, in_view t (map_base t m) n p -> w_vm (n_w s) p = None) /\
        (forall p, ~ in_view t (map_base t m) n p -> w_vm (n_w s') p = w_vm (n_w s) p) /\
        map_base t m <= m_ptr m /\ m_ptr m + m_len m <= map_base t m + t_page t * n /\ m_ptr m mod t_page t = op_offset o mod t_page t)
  | Err e => walloc_fits t o /\ same_space s s' /\ (e_op e = MapAnonymousHandle \/ e_op e = MapAnonymousView)
  | Panic => ~ walloc_fits t o /\ s' = s
  | _ => False
  end.
Proof. intros t o s r s' Ht. exact (walloc_lemma t Ht o s r s'). Qed.
Example C65_case2 : let s := ex_win [] [Grant 88; Grant 131072] in
  match walloc (twin true) (opt_len (ExtMin 70000) (opt_offset 4100 mapmut_with_options)) s with
  | (Ret m, s') => m = {| m_ptr := 131076; m_len := 131068 |} /\ n_view s' 131072 = Some 32 /\ fst (wget (twin true) m 131067 s') = Ret 0 /\
      fst (wset (twin true) m 131067 1 s') = Ret tt /\ n_sec s' 88 = None
  | _ => False end.
Proof. vm_compute. auto 10. Qed.
Print Assumptions C65_alloc.

(** ** Histories.  [any a]: every call is allowed. *)
Definition any (a : act) : Prop := True.

(** The example: file 7 is mapped for writing (thing 0), 4200 anonymous bytes
    (thing 1), a ring (thing 2), a private copy of the file (thing 3), a
    read-only map of it (thing 4); then both descriptors are closed. *)
Definition exw_acts : list act :=
  [AMap true (opt_offset 5000 mapmut_with_options) 3; AAlloc true (opt_len (ExtExact 4200) (opt_offset 4100 mapmut_with_options));
   ARing 70000; AMap true (opt_copy mapmut_with_options) 4; AMap false opt_new 4; AClose 3; AClose 4].
Definition exw_answers : list answer :=
  [Grant 0; Grant 88; Grant 131072; Grant 88; Grant 65536; Grant 88; Grant 262144; Grant 0; Grant 0; Grant 0;
   Grant 0; Grant 88; Grant 524288; Grant 0; Grant 88; Grant 589824].
Definition exw_prog (c : bool) (h : list act) (l : list answer) : prog :=
  act_run (twin c) (exw_acts ++ h) (holds_nothing (ex_win [] (exw_answers ++ l))).
Lemma exw_fresh l : fresh_start (ex_win [] l).
Proof.
  split; [|reflexivity|reflexivity]. split; cbn; try discriminate.
  - intros fd f. destruct (Z.eqb_spec fd 3); [|destruct (Z.eqb_spec fd 4); [|discriminate]]; intros H; injection H as <-; cbn; lia.
  - intros p o. destruct (p =? 7); [|discriminate]. intros H. injection H as <-. lia.
  - intros o. destruct (o =? 1); cbn; lia.
Qed.
Lemma exw_acts_ok c : Forall (fun a => act_ok (twin c) a /\ any a) exw_acts.
Proof.
  unfold exw_acts. repeat (apply Forall_cons; [split; [|exact I]|]); try apply Forall_nil; cbn -[Z.pow];
    unfold options_ok, extent_ok, is_usize, walloc_fits; cbn -[Z.pow]; change (2 ^ 64) with 18446744073709551616; try lia.
Qed.
Lemma exw_reached c h l : Forall (fun a => act_ok (twin c) a /\ any a) h -> reached_win (twin c) any (exw_prog c h l).
Proof.
  intros F. exists (ex_win [] (exw_answers ++ l)), (exw_acts ++ h). split; [apply exw_fresh|]. split; [|reflexivity].
  apply Forall_app. split; [apply exw_acts_ok|exact F].
Qed.
(** Lengths and first bytes of the things of the example. *)
Example exw_case : let g := exw_prog true [] [] in
  map (fun k => option_map size_of (g_tab g k)) [0; 1; 2; 3; 4; 5] = [Some 5000; Some 4200; Some 262144; Some 10000; Some 10000; None] /\
  map (fun k => reading (twin true) g k 4199) [0; 1; 2; 3; 4] =
    [Ret (GByte (9199 mod 251)); Ret (GByte 0); Ret (GByte 0); Ret (GByte (4199 mod 251)); Ret (GByte (4199 mod 251))] /\
  map (n_view (g_s g)) [65536; 131072; 262144; 393216; 524288; 589824] = [Some 2; Some 3; Some 32; Some 32; Some 3; Some 3].
Proof. vm_compute. auto. Qed.

(** ** C66: after any history, dropping a map unmaps exactly the view it was
    given, with all pages of the map, or nothing if the kernel refuses.  It
    does so whatever [os::unmap] reports (C33). *)
Theorem C66_drop_partial : forall t g k v r g', good_target t -> reached_win t any g -> g_tab g k = Some (TMap v) -> 0 < m_len (v_map v) ->
  act_step t (ADrop k) g = (r, g') ->
  r = Ret GNone /\ g_tab g' k = None /\ (forall j, j <> k -> g_tab g' j = g_tab g j) /\
  ((calls (g_s g) (g_s g') [(WUnmap (map_base t (v_map v)), true)] /\ view_removed t (g_s g) (g_s g') (map_base t (v_map v)) /\
    (forall p, own_page t (v_map v) p -> w_vm (n_w (g_s g')) p = None)) \/
   (calls (g_s g) (g_s g') [(WUnmap (map_base t (v_map v)), false)] /\ same_space (g_s g) (g_s g'))) /\
  (forall x l, w_orc (n_w (g_s g)) = Grant x :: l -> calls (g_s g) (g_s g') [(WUnmap (map_base t (v_map v)), true)]).
Proof. intros t g k v r g' Ht R. exact (drop_lemma t Ht g k v r g' (reached_prog t Ht any g R)). Qed.
Example C66_case : let g := exw_prog true [] [Grant 0] in
  match act_step (twin true) (ADrop 0) g with
  | (Ret GNone, g') => n_view (g_s g) 131072 = Some 3 /\ n_view (g_s g') 131072 = None /\ n_view (g_s g') 65536 = Some 2 /\
      map (fun p => match w_vm (n_w (g_s g')) p with Some _ => true | None => false end) [16; 17; 32; 33; 34; 64] = [true; true; false; false; false; true]
  | _ => False end.
Proof. vm_compute. auto 10. Qed.
Print Assumptions C66_drop_partial.

(** For a map of no bytes it does nothing, although such a map has a view: for
    instance of the end of a file, or of the rest of it. *)
Theorem C66_empty_refuted : exists g v, reached_win (twin true) any g /\
  g_tab g 0 = Some (TMap v) /\ m_len (v_map v) = 0 /\ n_view (g_s g) (map_base (twin true) (v_map v)) = Some 3 /\
  let g' := snd (act_step (twin true) (ADrop 0) g) in
  g_tab g' 0 = None /\ n_view (g_s g') (map_base (twin true) (v_map v)) = Some 3.
Proof.
  set (h := [AMap true (opt_len (ExtExact 0) mapmut_with_options) 3]). set (l := [Grant 0; Grant 88; Grant 131072; Grant 0]).
  exists (act_run (twin true) h (holds_nothing (ex_win [] l))). eexists. split; [|split; [vm_compute; reflexivity|vm_compute; auto 10]].
  exists (ex_win [] l), h. split; [apply exw_fresh|]. split; [|reflexivity].
  repeat constructor; cbn -[Z.pow]; unfold is_usize; cbn -[Z.pow]; lia.
Qed.
Print Assumptions C66_empty_refuted.

(** ** C67: no interference.  Rings and anonymous maps can be read at every
    index below their size, whatever was done before; the two halves of a ring
    are the same memory. *)
Theorem C67_readable : forall t g k x, good_target t -> reached_win t any g -> g_tab g k = Some x -> private_thing x = true ->
  (forall i, 0 <= i < size_of x -> exists b, reading t g k i = Ret (GByte b)) /\
  (forall i, ~ (0 <= i < size_of x) -> reading t g k i = Panic) /\
  (forall i j, 0 <= i < size_of x -> 0 <= j < size_of x -> same_cell x i j -> reading t g k j = reading t g k i).
Proof. intros t g k x Ht R. exact (private_read t Ht g k x (reached_prog t Ht any g R)). Qed.
Print Assumptions C67_readable.

(** Their bytes change only by stores through themselves: no other call, on
    whatever thing or file, with whatever result, changes one. *)
Theorem C67_isolation : forall t a g k x, good_target t -> reached_win t any g -> act_ok t a -> g_tab g k = Some x ->
  private_thing x = true -> ~ touches a k ->
  let g' := snd (act_step t a g) in
  exists x', g_tab g' k = Some x' /\ same_thing x x' /\ forall i, reading t g' k i = reading t g k i.
Proof. intros t a g k x Ht R Ha. exact (private_kept t Ht a g k x Ha (reached_prog t Ht any g R)). Qed.

(** Stores through things that allow them succeed and change the byte stored
    to and no other; in a file only with a shared map, and only that byte. *)
Theorem C67_store : forall t g k x i b, good_target t -> reached_win t any g -> g_tab g k = Some x -> can_store x = true ->
  0 <= i < size_of x -> private_thing x = true \/ in_object g x i ->
  exists g', act_step t (ASet k i b) g = (Ret GNone, g') /\ g_tab g' k = Some x /\
    (forall j, 0 <= j < size_of x -> same_cell x i j -> reading t g' k j = Ret (GByte b)) /\
    (forall j, ~ same_cell x i j -> reading t g' k j = reading t g k j) /\
    match x with
    | TMap v => forall o j, o_data (w_obj (n_w (g_s g')) o) j =
        if win_shares (v_prot v) && (o =? v_obj v) && (j =? v_off v + i) then b else o_data (w_obj (n_w (g_s g)) o) j
    | TRing _ _ => True
    end.
Proof.
  intros t g k x i b Ht R Hk Cs Hi Ho. pose proof (reached_prog t Ht any g R) as Hg. apply (store_seen t Ht g k x i b Hg Hk Cs Hi).
  destruct Ho as [Ho|Ho]; [exact (private_in t g k x i Hg Hk Ho Hi)|exact Ho].
Qed.
(** A shared map shows the file as it is, as long as the file is long enough;
    the descriptor may be closed. *)
Theorem C67_file : forall t g k v i, good_target t -> reached_win t any g -> g_tab g k = Some (TMap v) -> 0 <= i < m_len (v_map v) ->
  in_object g (TMap v) i ->
  exists b, reading t g k i = Ret (GByte b) /\ (win_shares (v_prot v) = true -> b = o_data (w_obj (n_w (g_s g)) (v_obj v)) (v_off v + i)).
Proof. intros t g k v i Ht R. exact (file_read t Ht g k v i (reached_prog t Ht any g R)). Qed.
(** Things 0 and 4 share the file, 3 has its own copy. *)
Example C67_case : let g := exw_prog true [ASet 0 100 77; ASet 2 5 78; ASet 2 131078 79; ASet 3 5101 80; ASet 1 0 81; ADrop 4] [Grant 0] in
  let g0 := exw_prog true [ASet 0 100 77] [] in
  map (fun k => reading (twin true) g0 k 5100) [3; 4] = [Ret (GByte 77); Ret (GByte 77)] /\
  map (fun x => reading (twin true) g (fst x) (snd x)) [(0, 100); (0, 101); (2, 5); (2, 131077); (2, 6); (3, 5101); (1, 0)] =
    [Ret (GByte 77); Ret (GByte (5101 mod 251)); Ret (GByte 78); Ret (GByte 78); Ret (GByte 79); Ret (GByte 80); Ret (GByte 81)] /\
  reading (twin true) g 2 262144 = Panic.
Proof. vm_compute. auto 10. Qed.
Print Assumptions C67_isolation.
Print Assumptions C67_store.
Print Assumptions C67_file.

(** ** C68: nothing is left behind.  After any history in which the kernel
    refused no release and no map of no bytes was dropped, there are exactly
    the views and pages of the things still held; reservations and handles are
    those of the beginning.  (The condition on maps of no bytes is missing
    from the claim; C66_empty_refuted shows that it is needed.) *)
Theorem C68_exact_partial : forall t s h, good_target t -> fresh_start s -> tidy_run t h (holds_nothing s) ->
  let g := act_run t h (holds_nothing s) in
  (forall a, n_view (g_s g) a <> None <-> exists k x, g_tab g k = Some x /\ bases_of t x a) /\
  (forall p, w_vm (n_w (g_s g)) p <> None <-> exists a n, n_view (g_s g) a = Some n /\ in_view t a n p) /\
  same_kernel s (g_s g).
Proof. intros t s h Ht. exact (tidy_exact t Ht s h). Qed.
Theorem C68_all_dropped_partial : forall t s h, good_target t -> fresh_start s -> tidy_run t h (holds_nothing s) ->
  let g := act_run t h (holds_nothing s) in (forall k, g_tab g k = None) ->
  (forall p, w_vm (n_w (g_s g)) p = None) /\ (forall a, n_view (g_s g) a = None) /\ same_kernel s (g_s g).
Proof.
  intros t s h Ht Fs Td g E. destruct (tidy_exact t Ht s h Fs Td) as (A & B & C). fold g in A, B, C.
  assert (V : forall a, n_view (g_s g) a = None).
  { intros a. destruct (n_view (g_s g) a) eqn:X; [|reflexivity]. destruct (proj1 (A a)) as (k & x & Hk & _); [congruence|]. rewrite E in Hk. discriminate. }
  split; [|auto]. intros p. destruct (w_vm (n_w (g_s g)) p) eqn:X; [|reflexivity].
  destruct (proj1 (B p)) as (a & n & Ha & _); [congruence|]. rewrite V in Ha. discriminate.
Qed.
(** A decidable form of [tidy_run], for the example. *)
Definition wc_eq (x y : wcall * bool) : {x = y} + {x <> y}.
Proof. decide equality; [apply Bool.bool_dec|]. decide equality; apply Z.eq_dec. Defined.
Definition no_release_failed (l : list (wcall * bool)) : bool :=
  forallb (fun x => match x with (WRelease _, false) | (WUnmap _, false) => false | _ => true end) l.
Definition releasedb (s s' : win) : bool :=
  let l := firstn (length (n_log s') - length (n_log s)) (n_log s') in
  (if list_eq_dec wc_eq (n_log s') (l ++ n_log s) then true else false) && no_release_failed l.
Definition filledb (a : act) (g : prog) : bool :=
  match a with ADrop k => match g_tab g k with Some (TMap v) => 0 <? m_len (v_map v) | _ => true end | _ => true end.
Fixpoint tidyb (t : target) (h : list act) (g : prog) : bool :=
  match h with
  | [] => true
  | a :: h => let g' := snd (act_step t a g) in releasedb (g_s g) (g_s g') && filledb a g && tidyb t h g'
  end.
Lemma tidyb_ok t h : forall g, Forall (act_ok t) h -> tidyb t h g = true -> tidy_run t h g.
Proof.
  induction h as [|a h IH]; intros g F H; [exact I|]. inversion F as [|? ? Fa Fh]; subst. cbn [tidyb tidy_run] in *.
  apply andb_true_iff in H as [H Ht]. apply andb_true_iff in H as [Hr Hf]. split; [exact Fa|]. split; [|split; [|exact (IH _ Fh Ht)]].
  - unfold releasedb in Hr. apply andb_true_iff in Hr as [H1 H2].
    set (s' := g_s (snd (act_step t a g))) in *. set (l := firstn _ _) in *. exists l.
    split; [unfold calls; destruct (list_eq_dec wc_eq (n_log s') (l ++ n_log (g_s g))); [assumption|discriminate]|].
    intros (x & Hx). unfold no_release_failed in H2. rewrite forallb_forall in H2. destruct Hx as [Hx|Hx]; specialize (H2 _ Hx); discriminate.
  - intros k v -> Hk. cbn in Hf. rewrite Hk in Hf. apply Z.ltb_lt, Hf.
Qed.
(** Everything of the example is dropped, in some order. *)
Example C68_case :
  let s := ex_win [] (exw_answers ++ [Grant 0; Grant 0; Grant 0; Grant 0; Grant 0; Grant 0; Grant 0]) in
  let h := exw_acts ++ [ASet 2 5 78; ADrop 2; ADrop 0; ADrop 4; ADrop 1; ADrop 3] in
  fresh_start s /\ tidy_run (twin true) h (holds_nothing s) /\
  forall k, g_tab (act_run (twin true) h (holds_nothing s)) k = None.
Proof.
  cbv zeta. split; [apply exw_fresh|]. split.
  - apply tidyb_ok; [|vm_compute; reflexivity]. apply Forall_app. split; [|repeat constructor].
    refine (Forall_impl _ _ (exw_acts_ok true)). intros a. tauto.
  - intros k. vm_compute. repeat match goal with |- (if ?b then _ else _) = _ => destruct b; [reflexivity|] end; destruct k; reflexivity.
Qed.
Print Assumptions C68_exact_partial.
Print Assumptions C68_all_dropped_partial.

(** ** C69: into_map_mut succeeds exactly when the map was made for writing
    (with [ReadWrite], or [ReadCopy]); the file being open for writing is not
    enough, other than on the other systems (C12). *)
Theorem C69_into_map_mut : forall t k v g r g', good_target t -> reached_win t any g -> g_tab g k = Some (TMap v) -> v_mut v = false ->
  0 < m_len (v_map v) -> act_step t (AToMut k) g = (r, g') ->
  match r with
  | Ret _ => prot_writes (v_prot v) = true /\ (exists v', g_tab g' k = Some (TMap v') /\ same_thing (TMap v) (TMap v') /\ can_store (TMap v') = true)
  | Err e => e_op e = OpProtect /\ g_tab g' = g_tab g /\ same_space (g_s g) (g_s g')
  | _ => False
  end /\
  (forall x l, w_orc (n_w (g_s g)) = Grant x :: l -> r = Ret GNone <-> prot_writes (v_prot v) = true).
Proof. intros t k v g r g' Ht R. exact (to_mut_lemma t Ht k v g r g' (reached_prog t Ht any g R)). Qed.
(** Thing 4 is a [Map]; thing 3 was made for writing and converted to a
    [Map]. *)
Example C69_case : let g := exw_prog true [AToMap 3] [Grant 0; Grant 0] in
  fst (act_step (twin true) (AToMut 4) g) = Err (last_os_error OpProtect ERROR_INVALID_PARAMETER) /\
  fst (act_step (twin true) (AToMut 3) g) = Ret GNone /\
  reading (twin true) (snd (act_step (twin true) (AToMut 3) g)) 3 500 = Ret (GByte (500 mod 251)).
Proof. vm_compute. auto. Qed.
Theorem C69_writable_file_refuted : exists g v f x l, reached_win (twin true) any g /\
  g_tab g 0 = Some (TMap v) /\ v_mut v = false /\ 0 < m_len (v_map v) /\
  w_fd (n_w (g_s g)) 3 = Some f /\ fd_w f = true /\ fd_obj f = v_obj v /\ w_orc (n_w (g_s g)) = Grant x :: l /\
  fst (act_step (twin true) (AToMut 0) g) = Err (last_os_error OpProtect ERROR_INVALID_PARAMETER).
Proof.
  set (h := [AMap false opt_new 3]). set (l := [Grant 0; Grant 88; Grant 131072; Grant 0]).
  exists (act_run (twin true) h (holds_nothing (ex_win [] l))). eexists. eexists. eexists. eexists.
  split; [|repeat split; try (vm_compute; reflexivity)].
  exists (ex_win [] l), h. split; [apply exw_fresh|]. split; [|reflexivity].
  repeat constructor; cbn -[Z.pow]; unfold is_usize; cbn -[Z.pow]; lia.
Qed.
Print Assumptions C69_into_map_mut.
Print Assumptions C69_writable_file_refuted.

(** ** C70: a synchronous flush through a shared map that returns Ok leaves
    every byte of the range on storage as it is in memory, provided that the
    file handed over is the file of the map; it needs the file open for
    writing.  Whatever the outcome, nothing changes in memory. *)
Theorem C70_flush : forall t g k v fd r g', good_target t -> reached_win t any g -> g_tab g k = Some (TMap v) -> v_mut v = true ->
  win_shares (v_prot v) = true -> 0 < m_len (v_map v) ->
  act_step t (AFlush k fd FlushSync) g = (r, g') -> flushed g g' r v fd 0 (m_len (v_map v)).
Proof. intros t g k v fd r g' Ht R. exact (flush_lemma t Ht g k v fd r g' (reached_prog t Ht any g R)). Qed.
Theorem C70_flush_range : forall t g k v fd off n r g', good_target t -> reached_win t any g -> g_tab g k = Some (TMap v) -> v_mut v = true ->
  win_shares (v_prot v) = true -> 0 <= off -> 0 < n -> off + n <= m_len (v_map v) ->
  act_step t (AFlushRange k fd off n FlushSync) g = (r, g') -> flushed g g' r v fd off n.
Proof. intros t g k v fd off n r g' Ht R. exact (flush_range_lemma t Ht g k v fd off n r g' (reached_prog t Ht any g R)). Qed.
Example C70_case : let g := act_run (twin true) [AMap true (opt_offset 5000 mapmut_with_options) 3; ASet 0 100 77; ASet 0 4000 78]
    (holds_nothing (ex_win [] [Grant 0; Grant 88; Grant 131072; Grant 0; Grant 0])) in
  let '(r, g') := act_step (twin true) (AFlushRange 0 3 50 100 FlushSync) g in
  r = Ret GNone /\ o_disk (w_obj (n_w (g_s g)) 1) 5100 = 5100 mod 251 /\ o_disk (w_obj (n_w (g_s g')) 1) 5100 = 77 /\
  o_disk (w_obj (n_w (g_s (snd (act_step (twin true) (AFlush 0 3 FlushSync) g)))) 1) 9000 = 78 /\
  fst (act_step (twin true) (AFlushRange 0 4 50 100 FlushSync) g) = Err (last_os_error OpFlush ERROR_ACCESS_DENIED).
Proof. vm_compute. auto 10. Qed.
Print Assumptions C70_flush.
Print Assumptions C70_flush_range.
