(** The functions of the module [os] on Windows: C107. *)
From Coq Require Import Lia.
From Verif Require Import Base ErrorModel OsModel MapModel MapSpec WinModel WinSpec PropertiesWin OsLayerModel OsLayerSpec WinOsModel WinOsSpec WinOsProofs WinOsGrants.

(** After any calls, the pages and views are what the answers of the calls
    say, if they were at the start: a page is mapped exactly when the last
    successful call that touched it mapped it, in the view that starts at the
    address that call answered, with the permissions, sharing and lock last
    asked for. *)
Theorem C107_page_table : forall t h s S, good_target t -> Forall (fun x => wocall_ok t (snd x)) h -> table t s S ->
  table t (snd (worun t h s)) (fun q => fold_left (wpage_after t q) (fst (worun t h s)) (S q)).
Proof. intros t h s S Ht. exact (worun_table t Ht h s S). Qed.

(** A call answers success or an error that names one of its operations and
    carries the code of the system; an error of any call but unmap changes
    nothing that is mapped.  No call keeps a handle, and none panics. *)
Theorem C107_answers : forall t file c s r s', good_target t -> wocall_ok t c -> wostep t file c s = (r, s') ->
  (forall h, n_sec s' h = n_sec s h) /\ (forall fd, w_fd (n_w s') fd = w_fd (n_w s) fd) /\ (forall path, w_fs (n_w s') path = w_fs (n_w s) path) /\
  match r with
  | Ret _ => True
  | Err e => In (e_op e) (woperation_of c) /\ (exists code, raw_os_error e = Some code) /\
             ((forall pg len, c <> OUnmap pg len) -> same_space s s') /\ forall o, o < w_next (n_w s) -> w_obj (n_w s') o = w_obj (n_w s) o
  | Fault => (exists addr b, c = OStore addr b) /\ same_space s s'
  | _ => False
  end.
Proof. intros t file c s r s' Ht. exact (wostep_answers t Ht file c s r s'). Qed.

Definition ex_wos : list (Z * ocall) :=
  map (fun c => (3, c))
    [OMapFile 3 65536 5000 ReadWrite; OMapFile 3 0 5000 ReadCopy; OMapAnon 100 ReadOnly; OLock 70000 1; OProtect 65600 1 ReadOnly; OStore 65536 9; OStore 69632 9;
     OUnmap 131073 5000; OUnmap 131072 1; OUnlock 69632 4096; OUnlock 69632 4096].
Definition ex_wos_answers : list answer :=
  [Grant 88; Grant 65536; Grant 88; Grant 65536; Grant 88; Grant 131072; Grant 0; Grant 0; Grant 0; Grant 0; Grant 0; Grant 0; Grant 0].
(** No mapped pages and views at all. *)
Example C107_case : table (twin true) (ex_win [] ex_wos_answers) (fun _ => None) /\
  Forall (fun x => wocall_ok (twin true) (snd x)) ex_wos /\
  let '(l, s') := worun (twin true) ex_wos (ex_win [] ex_wos_answers) in
  map (fun x => match snd x with Ret _ => 1 | Err _ => 0 | _ => 2 end) l = [0; 1; 1; 1; 1; 2; 1; 1; 0; 1; 0] /\
  map (fun q => option_map access_of (w_vm (n_w s') q)) [15; 16; 17; 18; 32] =
    [None; Some {| ac_w := false; ac_x := false; ac_shared := false; ac_lock := false |};
     Some {| ac_w := true; ac_x := false; ac_shared := false; ac_lock := false |}; None; None].
Proof.
  split; [|split].
  - split; [reflexivity| |discriminate]. intros b n H. discriminate H.
  - unfold ex_wos. cbn [map]. repeat (apply Forall_cons; [cbn; unfold is_usize; cbn; lia|]). apply Forall_nil.
  - vm_compute. split; reflexivity.
Qed.

(** When the calls are granted: what the arguments must be, exactly, for a
    call to succeed if the system does not refuse it for its own reasons.
    [h] is the handle the system offers, [a] the address. *)
Theorem C107_map_file_iff : forall t fd off len p s h a o, good_target t -> is_usize t off -> 0 < len ->
  w_orc (n_w s) = Grant h :: Grant a :: o ->
  (exists x s', win_map_file t fd off len p s = (Ret x, s')) <->
  0 < h /\ n_sec s h = None /\ off mod t_alloc t = 0 /\ wplace t s (others_then s) a len /\
  exists f, w_fd (n_w s) fd = Some f /\ (p = ReadWrite -> fd_w f = true) /\ off + len <= o_size (w_obj (n_w s) (fd_obj f)).
Proof. intros t fd off len p s h a o Ht. exact (wmap_file_iff t Ht fd off len p s h a o). Qed.
Theorem C107_map_anon_iff : forall t len p s h a o, good_target t -> is_usize t len ->
  w_orc (n_w s) = Grant h :: Grant a :: o ->
  (exists x s', win_map_anon t len p s = (Ret x, s')) <->
  0 < h /\ n_sec s h = None /\ wplace t s (others_then s) a len.
Proof. intros t len p s h a o Ht. exact (wmap_anon_iff t Ht len p s h a o). Qed.
(** The error of unmap means success (C33). *)
Theorem C107_unmap_iff : forall t pg len s a o, w_orc (n_w s) = Grant a :: o ->
  (exists e s', win_unmap t pg len s = (Err e, s')) <-> n_view s pg <> None.
Proof. exact wunmap_iff. Qed.
Theorem C107_protect_iff : forall t pg len p s a o, good_target t -> 0 <= pg -> w_orc (n_w s) = Grant a :: o ->
  (exists x s', win_protect t pg len p s = (Ret x, s')) <->
  0 < len /\ forall q, overlaps t pg len q = true ->
    exists e, w_vm (n_w s) q = Some e /\ (prot_writes p = true -> p_maxw e = true).
Proof. intros t pg len p s a o Ht. exact (wprotect_iff t Ht pg len p s a o). Qed.
(** Pages must be mapped to be locked, and locked to be unlocked. *)
Theorem C107_lock_iff : forall t pg len s a o, good_target t -> 0 <= pg -> w_orc (n_w s) = Grant a :: o ->
  ((exists x s', win_lock t pg len s = (Ret x, s')) <-> wmapped t s pg len) /\
  ((exists x s', win_unlock t pg len s = (Ret x, s')) <->
   0 < len /\ forall q, overlaps t pg len q = true -> exists e, w_vm (n_w s) q = Some e /\ p_lock e = true).
Proof. intros t pg len s a o Ht A Ho. exact (conj (wlock_iff t Ht pg len s a o A Ho) (wunlock_iff t Ht pg len s a o A Ho)). Qed.
(** [Sync] also needs a file open for writing (length 0: C62). *)
Theorem C107_flush_iff : forall t pg fd len s a b o, good_target t -> 0 <= pg -> len <> 0 ->
  w_orc (n_w s) = Grant a :: Grant b :: o ->
  ((exists x s', win_flush t pg fd len FlushAsync s = (Ret x, s')) <-> wmapped t s pg len) /\
  ((exists x s', win_flush t pg fd len FlushSync s = (Ret x, s')) <->
   wmapped t s pg len /\ exists f, w_fd (n_w s) fd = Some f /\ fd_w f = true).
Proof.
  intros t pg fd len s a b o Ht A L Ho.
  exact (conj (wflush_async_iff t Ht pg fd len s a (Grant b :: o) A L Ho) (wflush_sync_iff t Ht pg fd len s a b o A L Ho)).
Qed.
(** A place for a view and one taken by another thread; mapped and unmapped
    ranges. *)
Example C107_iff_case :
  wplace (twin true) (ex_win [] []) (fun q => q =? 18) 65536 5000 /\ ~ wplace (twin true) (ex_win [] []) (fun q => q =? 17) 65536 5000 /\
  (exists x s', win_map_file (twin true) 3 0 5000 ReadCopy (ex_win [] [Grant 88; Grant 65536]) = (Ret x, s')) /\
  wmapped (twin true) (ex_view []) 65537 4096 /\ ~ wmapped (twin true) (ex_view []) 65536 8193.
Proof.
  split; [|split; [|split; [|split]]].
  - unfold wplace. cbn [t_page twin t_bits t_alloc]. repeat split; try lia; unfold overlaps in H; cbn [t_page twin] in H;
      apply andb_prop in H as [H1 H2]; apply Z.ltb_lt in H1, H2; [apply Z.eqb_neq|]; lia.
  - intros (_ & _ & _ & _ & _ & V). destruct (V 17 eq_refl) as (_ & X & _). discriminate X.
  - eexists. eexists. reflexivity.
  - split; [lia|]. intros q Q. unfold overlaps in Q. cbn [t_page twin] in Q. apply andb_prop in Q as [Q1 Q2].
    apply Z.ltb_lt in Q1, Q2. assert (E : q = 16 \/ q = 17) by lia. destruct E as [-> | ->]; eexists; vm_compute; reflexivity.
  - intros [_ V]. destruct (V 18 eq_refl) as (e & E). vm_compute in E. discriminate E.
Qed.

(** The length given to unmap does not matter: one byte of a view of two pages
    unmaps both, and the answer is an error. *)
Theorem C107_unmap_len_refuted : ~ (forall t pg len s r s', good_target t -> 0 < len -> n_view s pg <> None ->
  win_unmap t pg len s = (r, s') -> forall q, overlaps t pg len q = false -> w_vm (n_w s') q = w_vm (n_w s) q).
Proof.
  intros F. destruct (win_unmap (twin true) 65536 1 (ex_view [Grant 0])) as [r s'] eqn:E.
  assert (G : good_target (twin true)) by apply twin_good.
  assert (V : n_view (ex_view [Grant 0]) 65536 <> None) by (vm_compute; discriminate).
  specialize (F (twin true) 65536 1 (ex_view [Grant 0]) r s' G ltac:(lia) V E 17 eq_refl).
  change s' with (snd (r, s')) in F. rewrite <- E in F. vm_compute in F. discriminate F.
Qed.
Print Assumptions C107_page_table.
Print Assumptions C107_answers.
Print Assumptions C107_unmap_len_refuted.
Print Assumptions C107_map_file_iff.
Print Assumptions C107_map_anon_iff.
Print Assumptions C107_unmap_iff.
Print Assumptions C107_protect_iff.
Print Assumptions C107_lock_iff.
Print Assumptions C107_flush_iff.
