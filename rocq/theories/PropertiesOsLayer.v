(** The functions of the module [os] on POSIX: C106. *)
From Coq Require Import Lia.
From Verif Require Import Base ErrorModel OsModel OsProofs MapModel MapSpec PropertiesSize PropertiesMap OsLayerModel OsLayerSpec OsLayerProofs.

(** After any calls with any arguments, each page of the program is what the
    answers of the calls say: mapped exactly when the last successful call that
    touched it mapped it, with the permissions, sharing and lock that the last
    successful calls asked for. *)
Theorem C106_page_table : forall t h w q, 0 < t_page t ->
  option_map access_of (w_vm (snd (orun t h w)) q) =
  fold_left (page_after t q) (fst (orun t h w)) (option_map access_of (w_vm w q)).
Proof. intros t h w q HP. exact (orun_page t HP h w q). Qed.

(** A call answers success or an error that names the operation and carries
    the code of the system; an error changes nothing.  No call panics or
    touches the memory it is given the address of. *)
Theorem C106_answers : forall t c w r w', 0 < t_page t -> ostep t c w = (r, w') ->
  match r with
  | Ret _ => True
  | Err e => untouched w w' /\ operation_of c = Some (e_op e) /\ exists code, raw_os_error e = Some code
  | Fault => (exists addr b, c = OStore addr b) /\ untouched w w'
  | _ => False
  end.
Proof. intros t c w r w' HP. exact (ostep_answers t c w r w'). Qed.

(** A mapped file shows the bytes of the file from the offset on, at fresh
    pages, and changes nothing else. *)
Theorem C106_map_file : forall t fd off len p w a w', 0 < t_page t -> is_usize t off ->
  os_map_file t fd off len p w = (Ret a, w') ->
  exists f, w_fd w fd = Some f /\ (p = ReadWrite -> fd_w f = true) /\
    t_page t <= a /\ a mod t_page t = 0 /\ a + len <= 2 ^ t_bits t /\ off mod t_page t = 0 /\ 0 < len /\
    (forall q, overlaps t a len q = true -> w_vm w q = None) /\
    (forall q, overlaps t a len q = false -> w_vm w' q = w_vm w q) /\
    (forall o, w_obj w' o = w_obj w o) /\ (forall x, w_fd w' x = w_fd w x) /\ (forall x, w_fs w' x = w_fs w x) /\
    forall i, 0 <= i < len -> load (E:=error) t w' (a + i) =
      if o_size (w_obj w (fd_obj f)) <=? t_page t * ((off + i) / t_page t) then Fault
      else Ret (o_data (w_obj w (fd_obj f)) (off + i)).
Proof. intros t fd off len p w a w' HP. exact (map_file_spec t HP fd off len p w a w'). Qed.

(** Anonymous memory is zeros, at fresh pages that belong to nothing else; it
    is never given out read only. *)
Theorem C106_map_anon : forall t len p w a w', 0 < t_page t -> wf w -> os_map_anon t len p w = (Ret a, w') ->
  p <> ReadOnly /\ t_page t <= a /\ a mod t_page t = 0 /\ a + len <= 2 ^ t_bits t /\ 0 < len /\
  (forall q, overlaps t a len q = true -> w_vm w q = None) /\
  (forall q, overlaps t a len q = false -> w_vm w' q = w_vm w q) /\
  (forall o, o < w_next w -> w_obj w' o = w_obj w o) /\ (forall x, w_fd w' x = w_fd w x) /\ (forall x, w_fs w' x = w_fs w x) /\
  (forall q, overlaps t a len q = true -> exists e, w_vm w' q = Some e /\ p_obj e = w_next w) /\
  forall i, 0 <= i < len -> load (E:=error) t w' (a + i) = Ret 0.
Proof. intros t len p w a w' HP. exact (map_anon_spec t HP len p w a w'). Qed.

(** Unmapping what was mapped restores the address space. *)
Theorem C106_map_unmap : forall t c w a w1 r w2 len q, 0 < t_page t ->
  (exists fd off p, c = OMapFile fd off len p) \/ (exists p, c = OMapAnon len p) ->
  ostep t c w = (Ret a, w1) -> ostep t (OUnmap a len) w1 = (Ret r, w2) -> w_vm w2 q = w_vm w q.
Proof. intros t c w a w1 r w2 len q HP. exact (map_unmap t c w a w1 r w2 len q). Qed.

(** If the system does not refuse, the protection changes exactly when the
    address is aligned, all pages are mapped, and none of them is a shared view
    of a file opened for reading that would become writable. *)
Theorem C106_protect_iff : forall t pg len p w a o, 0 < t_page t -> w_orc w = Grant a :: o ->
  (exists w', os_protect t pg len p w = (Ret tt, w')) <->
  pg mod t_page t = 0 /\ forall q, overlaps t pg len q = true ->
    exists e, w_vm w q = Some e /\ (prot_writes p = true -> p_maxw e = true).
Proof. intros t pg len p w a o HP. exact (protect_iff t HP pg len p w a o). Qed.

(** Flushing changes nothing but the storage; [Sync] leaves the bytes of the
    shared pages of the range there, and nothing else is written. *)
Theorem C106_flush : forall t pg len m w w', 0 < t_page t -> os_flush t pg len m w = (Ret tt, w') ->
  (forall q, w_vm w' q = w_vm w q) /\ (forall x, w_fd w' x = w_fd w x) /\ (forall x, w_fs w' x = w_fs w x) /\
  (forall o, o_size (w_obj w' o) = o_size (w_obj w o) /\ forall i, o_data (w_obj w' o) i = o_data (w_obj w o) i) /\
  (m = FlushSync -> forall q e k, overlaps t pg len q = true -> w_vm w q = Some e -> p_shared e = true -> 0 <= k < t_page t ->
     o_disk (w_obj w' (p_obj e)) (t_page t * p_idx e + k) = o_data (w_obj w (p_obj e)) (t_page t * p_idx e + k)) /\
  (forall o i, o_disk (w_obj w' o) i <> o_disk (w_obj w o) i ->
     m = FlushSync /\ exists q e, overlaps t pg len q = true /\ w_vm w q = Some e /\ p_shared e = true /\ p_obj e = o /\
       t_page t * p_idx e <= i < t_page t * (p_idx e + 1)).
Proof.
  intros t pg len m w w' HP H. destruct (flush_spec t HP _ _ _ _ _ H) as (A & B & C & D & F).
  repeat (split; [assumption|]). split.
  - intros -> q e k Q E S K. destruct (F (p_obj e) (t_page t * p_idx e + k)) as [X|[_ N]]; [exact X|].
    elim N. split; [reflexivity|]. exists q, e. repeat split; try assumption; lia.
  - intros o i N. exact (flush_only t HP _ _ _ _ _ _ _ H N).
Qed.

(** Protecting, flushing, locking, unlocking and advising anything but
    [WillNotNeed] change no byte the program can read. *)
Theorem C106_bytes : forall t c w r w' x b, 0 < t_page t -> keeps_bytes c = true -> ostep t c w = (r, w') ->
  load (E:=error) t w x = Ret b -> load (E:=error) t w' x = Ret b.
Proof.
  intros t c w r w' x b HP K H L. rewrite <- L. exact (keeps_bytes_load t c w r w' x (load_readable t w x b L) K H).
Qed.

(** [WillNotNeed] is refused for locked pages; it discards the private copies
    in the range, and nothing else. *)
Theorem C106_will_not_need : forall t pg len w w', 0 < t_page t -> os_advise t pg len AdvWillNotNeed w = (Ret tt, w') ->
  (forall o, w_obj w' o = w_obj w o) /\
  (forall x, overlaps t pg len (x / t_page t) = false -> load (E:=error) t w' x = load t w x) /\
  (forall q e, overlaps t pg len q = true -> w_vm w q = Some e -> p_lock e = false) /\
  forall x e, overlaps t pg len (x / t_page t) = true -> w_vm w (x / t_page t) = Some e -> p_r e = true ->
    load (E:=error) t w' x = if o_size (w_obj w (p_obj e)) <=? t_page t * p_idx e then Fault
                             else Ret (o_data (w_obj w (p_obj e)) (t_page t * p_idx e + x mod t_page t)).
Proof. intros t pg len w w' HP. exact (will_not_need_spec t HP pg len w w'). Qed.

(** When the other calls are granted: what the arguments must be, exactly, for
    a call to succeed if the system does not refuse it for its own reasons. *)
Theorem C106_map_file_iff : forall t fd off len p w a o, 0 < t_page t -> is_usize t off -> w_orc w = Grant a :: o ->
  (exists x w', os_map_file t fd off len p w = (Ret x, w')) <->
  place t w a len /\ off < 2 ^ (t_bits t - 1) /\ off mod t_page t = 0 /\
  exists f, w_fd w fd = Some f /\ (p = ReadWrite -> fd_w f = true).
Proof. intros t fd off len p w a o HP. exact (map_file_iff t HP fd off len p w a o). Qed.
Theorem C106_map_anon_iff : forall t len p w a o, 0 < t_page t -> wf w -> w_orc w = Grant a :: o ->
  (exists x w', os_map_anon t len p w = (Ret x, w')) <-> p <> ReadOnly /\ place t w a len.
Proof. intros t len p w a o HP. exact (map_anon_iff t HP len p w a o). Qed.
Theorem C106_unmap_iff : forall t pg len w a o, w_orc w = Grant a :: o ->
  (exists x w', os_unmap t pg len w = (Ret x, w')) <-> 0 < len /\ pg mod t_page t = 0.
Proof. exact unmap_iff. Qed.
Theorem C106_flush_iff : forall t pg len m w a o, 0 < t_page t -> w_orc w = Grant a :: o ->
  (exists x w', os_flush t pg len m w = (Ret x, w')) <-> all_mapped t w pg len.
Proof. intros t pg len m w a o HP. exact (flush_iff t HP pg len m w a o). Qed.
Theorem C106_lock_iff : forall t pg len w a o, 0 < t_page t -> w_orc w = Grant a :: o ->
  ((exists x w', os_lock t pg len w = (Ret x, w')) <-> all_mapped t w pg len) /\
  ((exists x w', os_unlock t pg len w = (Ret x, w')) <-> all_mapped t w pg len).
Proof. intros t pg len w a o HP Ho. exact (conj (lock_iff t HP pg len w a o Ho) (unlock_iff t HP pg len w a o Ho)). Qed.
Theorem C106_advise_iff : forall t pg len k w a o, 0 < t_page t -> w_orc w = Grant a :: o ->
  (exists x w', os_advise t pg len k w = (Ret x, w')) <->
  all_mapped t w pg len /\ (k = AdvWillNotNeed -> forall q e, overlaps t pg len q = true -> w_vm w q = Some e -> p_lock e = false).
Proof. intros t pg len k w a o HP. exact (advise_iff t HP pg len k w a o). Qed.

(** A file open for writing at descriptor 3. *)
Definition ex_open (q : list answer) : world := set_fd (ex_world q) (fun fd => if fd =? 3 then Some {| fd_obj := 1; fd_w := true |} else None).
Definition ex_os : list ocall :=
  [OMapFile 3 4096 5000 ReadOnly; OMapAnon 100 ReadOnly; OMapAnon 8192 ReadCopy; OLock 131072 1; OProtect 65536 4097 ReadCopy; OStore 65537 9;
   OFlush 65536 1 FlushSync; OStore 135168 7; OAdvise 135168 1 AdvWillNotNeed; OAdvise 131072 1 AdvWillNotNeed; OUnmap 69632 1; OUnlock 65537 1].
Definition ex_os_answers : list answer := [Grant 65536; Grant 0; Grant 131072; Grant 0; Grant 0; Grant 0; Grant 0; Grant 0; Grant 0; Grant 0].

Example C106_case :
  let '(l, w') := orun (t64 true) ex_os (ex_open ex_os_answers) in
  map (fun x => match snd x with Ret _ => true | _ => false end) l = [true; false; true; true; true; true; true; true; true; false; true; false] /\
  option_map access_of (w_vm w' 16) = Some {| ac_w := true; ac_x := false; ac_shared := true; ac_lock := false |} /\
  w_vm w' 17 = None /\
  option_map access_of (w_vm w' 32) = Some {| ac_w := true; ac_x := false; ac_shared := false; ac_lock := true |} /\
  load (E:=error) (t64 true) w' 65537 = Ret 9 /\ o_disk (w_obj w' 1) 4097 = 9 /\
  load (E:=error) (t64 true) w' 135168 = Ret 0.
Proof. vm_compute. repeat split. Qed.
Example C106_map_file_case : exists w', os_map_file (t64 true) 3 4096 5000 ReadCopy (ex_open [Grant 65536]) = (Ret 65536, w') /\
  load (E:=error) (t64 true) w' (65536 + 10) = Ret (4106 mod 251).
Proof. eexists. split; [reflexivity|vm_compute; reflexivity]. Qed.
Example C106_map_unmap_case : exists w1 w2, ostep (t64 true) (OMapAnon 5000 ReadExec) (ex_open [Grant 65536; Grant 0]) = (Ret 65536, w1) /\
  ostep (t64 true) (OUnmap 65536 5000) w1 = (Ret 0, w2).
Proof. eexists. eexists. split; reflexivity. Qed.

(** Places the kernel may give, and one it may not; a mapped range. *)
Example C106_iff_case : place (t64 true) (ex_open []) 65536 5000 /\ ~ place (t64 true) (ex_open []) 65537 5000 /\
  all_mapped (t64 true) (set_vm (ex_open []) (fun q => if q =? 16 then Some (entry 1 0 PRW true true) else None)) 65536 4096 /\
  ~ all_mapped (t64 true) (set_vm (ex_open []) (fun q => if q =? 16 then Some (entry 1 0 PRW true true) else None)) 65536 4097.
Proof.
  split; [|split; [|split]].
  - unfold place. cbn [t_page t64 t_bits]. repeat split; try lia. unfold overlaps in H. cbn [t_page t64] in H.
    apply andb_prop in H as [H1 H2]. apply Z.ltb_lt in H1, H2. lia.
  - intros (_ & _ & X & _). discriminate X.
  - split; [reflexivity|]. intros q Q. unfold overlaps in Q. cbn [t_page t64] in Q. apply andb_prop in Q as [Q1 Q2].
    apply Z.ltb_lt in Q1, Q2. assert (E : q = 16) by lia. subst q. eexists. reflexivity.
  - intros [_ V]. destruct (V 17 eq_refl) as (e & E). discriminate E.
Qed.

(** [Protect::ReadCopy] means "read-write" in [os::protect]: a shared view of a
    file stays shared, so the writes it allows go to the file
    (src/os/unix/mod.rs:113; src/lib.rs:173-174: "changes are not
    shared"). *)
Theorem C106_protect_copy_refuted : ~ (forall t pg len w w1 r w2 b, posix_target t -> wf w ->
  os_protect t pg len ReadCopy w = (Ret tt, w1) -> 0 < len -> store (E:=error) t pg b w1 = (r, w2) ->
  forall o i, o_data (w_obj w2 o) i = o_data (w_obj w o) i).
Proof.
  intros F.
  pose (w0 := set_vm (ex_open [Grant 0]) (fun q => if q =? 16 then Some (entry 1 0 PRW true true) else None)).
  destruct (os_protect (t64 true) 65536 100 ReadCopy w0) as [r1 w1] eqn:E1.
  destruct (store (E:=error) (t64 true) 65536 77 w1) as [r2 w2] eqn:E2.
  assert (R1 : r1 = Ret tt) by (change r1 with (fst (r1, w1)); rewrite <- E1; vm_compute; reflexivity). subst r1.
  assert (W0 : wf w0).
  { unfold w0. split.
    - intros p e. cbn. destruct (p =? 16); [|discriminate]. intros X. injection X as <-. cbn. lia.
    - intros fd f. cbn. destruct (Z.eqb_spec fd 3); [|discriminate]. intros X. injection X as <-. cbn. lia.
    - intros path o. cbn. destruct (path =? 7); [|discriminate]. intros X. injection X as <-. lia.
    - intros o. cbn. destruct (o =? 1); cbn; lia. }
  specialize (F (t64 true) 65536 100 w0 w1 r2 w2 77 (t64_posix true) W0 E1 ltac:(lia) E2 1 0).
  assert (D : o_data (w_obj w2 1) 0 = 77).
  { change w2 with (snd (r2, w2)). rewrite <- E2. change w1 with (snd (@Ret error unit tt, w1)). rewrite <- E1. vm_compute. reflexivity. }
  rewrite D in F. vm_compute in F. discriminate F.
Qed.
Print Assumptions C106_map_file_iff.
Print Assumptions C106_map_anon_iff.
Print Assumptions C106_unmap_iff.
Print Assumptions C106_flush_iff.
Print Assumptions C106_lock_iff.
Print Assumptions C106_advise_iff.
Print Assumptions C106_page_table.
Print Assumptions C106_answers.
Print Assumptions C106_map_file.
Print Assumptions C106_map_anon.
Print Assumptions C106_map_unmap.
Print Assumptions C106_protect_iff.
Print Assumptions C106_flush.
Print Assumptions C106_bytes.
Print Assumptions C106_will_not_need.
Print Assumptions C106_protect_copy_refuted.
