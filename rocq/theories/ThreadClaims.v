(** Lemmas behind the properties of calls in progress. *)
From Coq Require Import Lia.
From Verif Require Import Base Spec ErrorModel RingSpec RingModel SizeModel SizeProofs OsModel OthersModel MapModel MapSpec OsProofs MapProofs MapCreate MapOps
  ApiModel ApiSpec OthersProofs ApiProofs RingMapModel RingMapSpec MirrorProofs RingMapClaims RingProofs IRingProofs RingWeak MemRingModel MemRingProofs
  ProcModel ProcSpec ProcFrame ProcProofs ProcClaims ThreadModel ThreadSpec ThreadFrame ThreadProofs ThreadInv.

Section Claims.
  Variable t : target.
  Variable plat : platform.

  (** ** The stages, run alone, are the call *)
  Definition goes (tid : Z) (p : proc) (w : world) (pd : pending) (r : tresult) (p' : proc) : Prop :=
    forall s, ts_p s = pc_set_w p w -> ts_pool s tid = Some pd ->
    exists n s', finish t plat n tid s = (r, s') /\ ts_p s' = p' /\ ts_pool s' tid = None /\ forall i, i <> tid -> ts_pool s' i = ts_pool s i.

  Lemma goes_more tid p w pd pd' w' r p' : advance t plat pd w = (More pd', w') -> goes tid p w' pd' r p' -> goes tid p w pd r p'.
  Proof.
    intros E G s Hs Hp. set (s1 := set_pool s (pc_set_w (ts_p s) w') tid (Some pd')).
    destruct (G s1) as (n & s' & F & A & B & C).
    - unfold s1. cbn [set_pool ts_p]. rewrite Hs. reflexivity.
    - unfold s1. cbn [set_pool ts_pool]. apply put_same.
    - exists (S n), s'. split; [|split; [exact A|split; [exact B|]]].
      + cbn [finish tstep]. rewrite Hp. unfold go. rewrite Hs. cbn [pc_set_w pc_w pc_a set_w a_w]. change (pc_w (pc_set_w p w)) with w. rewrite E.
        rewrite <- Hs. change (set_pool s (pc_set_w (ts_p s) w') tid (Some pd')) with s1. rewrite (put_same (ts_pool s) tid (Some pd') : ts_pool s1 tid = Some pd'). exact F.
      + intros i Hi. rewrite (C i Hi). unfold s1. cbn [set_pool ts_pool]. apply put_other, Hi.
  Qed.
  Lemma goes_end tid p w pd r p' : (forall s, ts_p s = pc_set_w p w -> ts_pool s tid = Some pd ->
      go t plat tid pd s = (r, set_pool s p' tid None)) -> goes tid p w pd r p'.
  Proof.
    intros G s Hs Hp. exists 1%nat, (set_pool s p' tid None). cbn [finish tstep]. rewrite Hp, (G s Hs Hp). cbn [set_pool ts_pool ts_p].
    rewrite put_same. split; [reflexivity|]. split; [reflexivity|]. split; [reflexivity|]. intros i Hi. apply put_other, Hi.
  Qed.
  Lemma goes_over tid p w pd r w' : advance t plat pd w = (Over r, w') -> goes tid p w pd r (pc_set_w p w').
  Proof. intros E. apply goes_end. intros s Hs _. unfold go. rewrite Hs. change (pc_w (pc_set_w p w)) with w. rewrite E. reflexivity. Qed.
  Lemma goes_map tid p w pd mut own o fd m w' : advance t plat pd w = (MadeMap mut own o fd m, w') ->
    goes tid p w pd (TMap (Ret (if own then SFile (Some (a_cnt (pc_a p))) fd else SMap (a_cnt (pc_a p)))))
      {| pc_a := add_live (pc_a p) w' (file_live mut o w' fd m); pc_ring := pc_ring p; pc_cnt := pc_cnt p |}.
  Proof. intros E. apply goes_end. intros s Hs _. unfold go. rewrite Hs. change (pc_w (pc_set_w p w)) with w. rewrite E. reflexivity. Qed.
  Lemma goes_ring tid p w pd inf pg len w' : advance t plat pd w = (MadeRing inf pg len, w') ->
    goes tid p w pd (TRing (Ret (pc_cnt p)))
      {| pc_a := set_w (pc_a p) w'; pc_ring := put (pc_ring p) (pc_cnt p) (Some (new_held inf pg len)); pc_cnt := pc_cnt p + 1 |}.
  Proof. intros E. apply goes_end. intros s Hs _. unfold go. rewrite Hs. change (pc_w (pc_set_w p w)) with w. rewrite E. reflexivity. Qed.

  (** [map_if] *)
  Definition map_end (mut own : bool) (o : options) (fd : Z) (p : proc) (x : out error (option mapping) * world) : tresult * proc :=
    let k := a_cnt (pc_a p) in
    match x with
    | (Ret (Some m), w') => (TMap (Ret (if own then SFile (Some k) fd else SMap k)),
        {| pc_a := add_live (pc_a p) w' (file_live mut o w' fd m); pc_ring := pc_ring p; pc_cnt := pc_cnt p |})
    | (Ret None, w') => (TMap (Ret (if own then SFile None fd else SNone)), pc_set_w p w')
    | (r, w') => (TMap (failure r), pc_set_w p (if own then snd (sys_close fd w') else w'))
    end.
  Lemma goes_fail {A} tid p w pd own fd (r : out error A) w' : advance t plat pd w = (map_fail own fd r, w') ->
    goes tid p w pd (TMap (failure r)) (pc_set_w p (if own then snd (sys_close fd w') else w')).
  Proof.
    unfold map_fail. destruct own; intros E; [|exact (goes_over _ _ _ _ _ _ E)].
    apply (goes_more _ _ _ _ _ _ _ _ E). refine (goes_over _ _ _ _ _ _ _). reflexivity.
  Qed.
  Lemma goes_part tid p w pd mut own o fd x : advance t plat pd w = then_ (map_fail own fd) x
      (fun m => match m with Some m => MadeMap mut own o fd m | None => Over (TMap (Ret (if own then SFile None fd else SNone))) end) ->
    goes tid p w pd (fst (map_end mut own o fd p x)) (snd (map_end mut own o fd p x)).
  Proof.
    intros E. destruct x as [[[m|]|e| | |] w']; cbn [then_ map_end fst snd] in *.
    - exact (goes_map _ _ _ _ _ _ _ _ _ _ E).
    - exact (goes_over _ _ _ _ _ _ E).
    - exact (goes_fail _ _ _ _ _ _ _ _ E).
    - exact (goes_fail _ _ _ _ _ _ _ _ E).
    - exact (goes_fail _ _ _ _ _ _ _ _ E).
    - exact (goes_fail _ _ _ _ _ _ _ _ E).
  Qed.
  (** One stage before another one. *)
  Lemma goes_then {A} tid p w pd (next : A -> pending) own fd (x : out error A * world) res :
    advance t plat pd w = then_ (map_fail own fd) x (fun a => More (next a)) ->
    (forall a w', x = (Ret a, w') -> goes tid p w' (next a) (fst (res a w')) (snd (res a w'))) ->
    goes tid p w pd (fst (match x with (Ret a, w') => res a w' | (r, w') => (TMap (failure r), pc_set_w p (if own then snd (sys_close fd w') else w')) end))
      (snd (match x with (Ret a, w') => res a w' | (r, w') => (TMap (failure r), pc_set_w p (if own then snd (sys_close fd w') else w')) end)).
  Proof.
    intros E N. destruct x as [[a|e| | |] w']; cbn [then_ fst snd] in *; try exact (goes_fail _ _ _ _ _ _ _ _ E).
    exact (goes_more _ _ _ _ _ _ _ _ E (N a w' eq_refl)).
  Qed.
  Lemma goes_map_if tid p w mut own o fd :
    goes tid p w (MStat mut own o fd) (fst (map_end mut own o fd p (map_if t o fd w))) (snd (map_end mut own o fd p (map_if t o fd w))).
  Proof.
    set (res3 := fun flen w => map_end mut own o fd p (map_part t o fd flen w)).
    set (res2 := fun flen w => match size_part t o fd flen w with (Ret a, w') => res3 a w' | (r, w') => (TMap (failure r), pc_set_w p (if own then snd (sys_close fd w') else w')) end).
    set (res1 := fun flen w => match (if op_truncate o && (0 <? flen) then resize_to t fd 0 else sret flen) w with
                               | (Ret a, w') => res2 a w' | (r, w') => (TMap (failure r), pc_set_w p (if own then snd (sys_close fd w') else w')) end).
    assert (E : map_end mut own o fd p (map_if t o fd w) =
      match (do* l <- io_call (file_len fd); sret (as_usize t l)) w with
      | (Ret a, w') => res1 a w' | (r, w') => (TMap (failure r), pc_set_w p (if own then snd (sys_close fd w') else w')) end).
    { unfold map_if. unfold sbind at 1. destruct ((do* l <- io_call (file_len fd); sret (as_usize t l)) w) as [[l|e| | |] w1]; try reflexivity.
      unfold res1. unfold sbind at 1. destruct ((if op_truncate o && (0 <? l) then resize_to t fd 0 else sret l) w1) as [[l2|e| | |] w2]; try reflexivity.
      unfold res2, size_part. unfold sbind at 1.
      destruct (op_resize o) as [|sz|sz|sz]; [| |destruct (l2 <? sz)|destruct (sz <? l2)];
        try (destruct (resize_to t fd sz w2) as [[l3|e| | |] w3]; reflexivity); reflexivity. }
    rewrite E. apply (goes_then tid p w (MStat mut own o fd) (MCut mut own o fd) own fd); [reflexivity|]. intros l w1 _.
    apply (goes_then tid p w1 (MCut mut own o fd l) (MSize mut own o fd) own fd); [reflexivity|]. intros l2 w2 _.
    apply (goes_then tid p w2 (MSize mut own o fd l2) (MMap mut own o fd) own fd); [reflexivity|]. intros l3 w3 _.
    apply goes_part. reflexivity.
  Qed.

  (** The ring allocation. *)
  Definition ring_end (inf : bool) (len : Z) (p : proc) (x : out error Z * world) : tresult * proc :=
    match x with
    | (Ret pg, w') => (TRing (Ret (pc_cnt p)),
        {| pc_a := set_w (pc_a p) w'; pc_ring := put (pc_ring p) (pc_cnt p) (Some (new_held inf pg len)); pc_cnt := pc_cnt p + 1 |})
    | (r, w') => (TRing (failure r), pc_set_w p w')
    end.
  Definition close_after (fd : Z) (x : out error Z * world) : out error Z * world :=
    match x with
    | (Ret pg, w') => (Ret pg, snd (sys_close fd w'))
    | (Err e, w') => (Err e, snd (sys_close fd w'))
    | (r, w') => (r, w')
    end.

  Lemma mmap_plain fixed addr len pr sh an fd off w : match fst (sys_mmap t fixed addr len pr sh an fd off w) with Ret _ | Err _ => True | _ => False end.
  Proof.
    assert (B : forall x : world, match backing t sh an (pr_w pr) fd len x with Ret _ | Err _ => True | _ => False end).
    { intros x. unfold backing. destruct an; [exact Logic.I|]. destruct (w_fd x fd) as [f|]; [|exact Logic.I].
      destruct (sh && pr_w pr && negb (fd_w f)); exact Logic.I. }
    unfold sys_mmap, ask. destruct (w_orc w) as [|[x|x] q]; try exact Logic.I.
    all: destruct (len <=? 0); [exact Logic.I|]; destruct ((off <? 0) || negb (off mod t_page t =? 0)); [exact Logic.I|];
      destruct (negb (range_ok t _ len)); [exact Logic.I|]; destruct (negb fixed && _); [exact Logic.I|];
      specialize (B (set_orc w q)); destruct (backing t sh an (pr_w pr) fd len (set_orc w q)) as [[[o mw] w1]|e| | |]; exact B.
  Qed.
  Lemma ring_mmap_plain op fixed pg len sh an fd w : match fst (ring_mmap t op fixed pg len sh an fd w) with Ret _ | Err _ => True | _ => False end.
  Proof. unfold ring_mmap, os_call. pose proof (mmap_plain fixed pg len PRW sh an fd 0 w) as H. destruct (sys_mmap t fixed pg len PRW sh an fd 0 w) as [[a|e| | |] w']; exact H. Qed.

  Lemma goes_closed tid p w inf len fd r : (forall pg, r <> Ret pg) ->
    goes tid p w (RClose inf len fd r) (TRing r) (pc_set_w p (snd (sys_close fd w))).
  Proof. intros H. apply goes_over. destruct r; try reflexivity. destruct (H a eq_refl). Qed.

  (** posix/mod.rs:46-48 *)
  Lemma goes_undo tid p w len fd pg e :
    goes tid p w (RUndo len fd pg e) (fst (ring_end false len p (close_after fd ((do* _ <- ignore (unmap_ring t pg len); sout (Err e)) w))))
      (snd (ring_end false len p (close_after fd ((do* _ <- ignore (unmap_ring t pg len); sout (Err e)) w)))).
  Proof.
    unfold sbind. destruct (ignore (unmap_ring t pg len) w) as [[u|e'| | |] w1] eqn:E; cbn [close_after ring_end fst snd sout].
    - eapply goes_more; [cbn [advance]; rewrite E; reflexivity|]. apply goes_closed. intros pg' Hp. discriminate Hp.
    - exfalso. unfold ignore in E. destruct (unmap_ring t pg len w) as [[| | | |] w2]; discriminate E.
    - apply goes_over. cbn [advance]. rewrite E. reflexivity.
    - apply goes_over. cbn [advance]. rewrite E. reflexivity.
    - apply goes_over. cbn [advance]. rewrite E. reflexivity.
  Qed.
  Lemma undo_never pg len (e : error) w r w' : (do* _ <- ignore (unmap_ring t pg len); sout (A:=Z) (Err e)) w = (r, w') -> forall a, r <> Ret a.
  Proof. unfold sbind. destruct (ignore (unmap_ring t pg len) w) as [[u|e'| | |] w1]; intros E a; injection E as <- <-; discriminate. Qed.
  Lemma ring_end_fail inf inf' len p r w' : (forall a, r <> Ret a) -> ring_end inf len p (r, w') = ring_end inf' len p (r, w').
  Proof. intros H. destruct r; try reflexivity. destruct (H a eq_refl). Qed.
  Lemma close_after_fail fd r w' : (forall a, r <> Ret a) -> forall a, fst (close_after fd (r, w')) <> Ret a.
  Proof. intros H. destruct r; cbn [close_after fst]; try discriminate. destruct (H a eq_refl). Qed.
  Lemma undo_end inf inf' len p fd pg l e w :
    ring_end inf len p (close_after fd ((do* _ <- ignore (unmap_ring t pg l); sout (Err e)) w)) =
    ring_end inf' len p (close_after fd ((do* _ <- ignore (unmap_ring t pg l); sout (Err e)) w)).
  Proof.
    destruct ((do* _ <- ignore (unmap_ring t pg l); sout (Err e)) w) as [r w'] eqn:E. pose proof (undo_never _ _ _ _ _ _ E) as N.
    pose proof (close_after_fail fd r w' N) as C. destruct (close_after fd (r, w')) as [r' w'']. apply ring_end_fail, C.
  Qed.

  Definition wrap_end (inf : bool) (len fd : Z) (p : proc) (x : out error Z * world) := ring_end inf len p (close_after fd x).
  Lemma goes_wrap tid p w inf len fd :
    goes tid p w (RReserve inf len fd) (fst (wrap_end inf len fd p (wrap_fd t len fd w))) (snd (wrap_end inf len fd p (wrap_fd t len fd w))).
  Proof.
    unfold wrap_end.
    destruct (umul (E:=error) t len 2) as [full|e| | |] eqn:Eu.
    2: exfalso; unfold umul, wrap in Eu; repeat match type of Eu with context [if ?b then _ else _] => destruct b end; discriminate Eu.
    2,3,4: unfold wrap_fd, sbind, sout; rewrite Eu; cbn [close_after ring_end fst snd]; apply goes_over; cbn [advance]; rewrite Eu; reflexivity.
    pose proof (ring_mmap_plain RingAllocate false 0 full false true (-1) w) as PL.
    destruct (ring_mmap t RingAllocate false 0 full false true (-1) w) as [[pg|e| | |] w1] eqn:E1; cbn [fst] in PL; try (destruct PL).
    2: { unfold wrap_fd, sbind, sout. rewrite Eu, E1. cbn [close_after ring_end fst snd].
         eapply goes_more; [cbn [advance]; rewrite Eu, E1; reflexivity|]. apply goes_closed. intros pg' Hp. discriminate Hp. }
    eapply goes_more; [cbn [advance]; rewrite Eu, E1; reflexivity|].
    assert (W : wrap_fd t len fd w = match wrap_ptr t pg len fd w1 with
             | (Err err, w') => (do* _ <- ignore (unmap_ring t pg len); sout (Err err)) w'
             | (r, w') => (r, w')
             end).
    { unfold wrap_fd at 1. unfold sbind at 1, sout at 1. rewrite Eu. unfold sbind at 1. rewrite E1. reflexivity. }
    rewrite W. clear W. 
    pose proof (ring_mmap_plain RingPrimary true pg len true false fd w1) as PL.
    destruct (ring_mmap t RingPrimary true pg len true false fd w1) as [[pg1|e| | |] w2] eqn:E2; cbn [fst] in PL; try (destruct PL).
    2: { eapply goes_more; [cbn [advance]; rewrite E2; reflexivity|].
         assert (W : wrap_ptr t pg len fd w1 = (Err e, w2)) by (unfold wrap_ptr, sbind; rewrite E2; reflexivity). rewrite W.
         rewrite (undo_end inf false). apply goes_undo. }
    eapply goes_more; [cbn [advance]; rewrite E2; reflexivity|].
    pose proof (ring_mmap_plain RingSecondary true (ptr_add t pg len) len true false fd w2) as PL.
    destruct (ring_mmap t RingSecondary true (ptr_add t pg len) len true false fd w2) as [[pg2|e| | |] w3] eqn:E3; cbn [fst] in PL; try (destruct PL).
    2: { eapply goes_more; [cbn [advance]; rewrite E3; reflexivity|].
         assert (W : wrap_ptr t pg len fd w1 = (Err e, w3)) by (unfold wrap_ptr, sbind; rewrite E2, E3; reflexivity). rewrite W.
         rewrite (undo_end inf false). apply goes_undo. }
    assert (W : wrap_ptr t pg len fd w1 = (Ret pg, w3)) by (unfold wrap_ptr, sbind; rewrite E2, E3; reflexivity). rewrite W.
    eapply goes_more; [cbn [advance]; rewrite E3; reflexivity|]. cbn [close_after ring_end fst snd]. apply goes_ring. reflexivity.
  Qed.

  (** posix/mod.rs:91-102 after the file is there *)
  Definition sized_end (inf : bool) (len fd : Z) (p : proc) (w : world) : tresult * proc :=
    match sys_ftruncate t fd (as_signed t len) w with
    | (Ret _, w') => wrap_end inf len fd p (wrap_fd t len fd w')
    | (Err e, w') => ring_end inf len p (Err (last_os_error MemoryFd e), snd (sys_close fd w'))
    | (_, w') => ring_end inf len p (Blocked, w')
    end.
  Lemma goes_sized tid p w inf len fd :
    goes tid p w (RSize inf len fd) (fst (sized_end inf len fd p w)) (snd (sized_end inf len fd p w)).
  Proof.
    unfold sized_end. destruct (sys_ftruncate t fd (as_signed t len) w) as [[u|e| | |] w'] eqn:E; cbn [ring_end fst snd].
    3,4,5: apply goes_over; cbn [advance]; rewrite E; reflexivity.
    - eapply goes_more; [cbn [advance]; rewrite E; reflexivity|]. apply goes_wrap.
    - eapply goes_more; [cbn [advance]; rewrite E; reflexivity|]. apply goes_closed. intros pg' Hp. discriminate Hp.
  Qed.
  Definition opened_end (inf : bool) (len : Z) (p : proc) (x : out error Z * world) : tresult * proc :=
    match x with
    | (Ret fd, w) => sized_end inf len fd p w
    | (r, w) => (TRing (failure r), pc_set_w p w)
    end.
  Lemma open_consumed path w e w' : sys_open t path true true true false w = (Err e, w') -> e = EEXIST -> (length (w_orc w') < length (w_orc w))%nat.
  Proof.
    unfold sys_open, ask. destruct (w_orc w) as [|[x|x] q] eqn:Eo; intros H ->; [discriminate H| |]; cbn [length];
      repeat match type of H with context [if ?b then _ else _] => destruct b; try discriminate H end;
      try (destruct (w_fs _ path) in H; repeat match type of H with context [if ?b then _ else _] => destruct b; try discriminate H end; try discriminate H);
      injection H; intros; subst; cbn [set_orc w_orc]; lia.
  Qed.
  Lemma goes_named (NM : plat = Named) tid p inf len clock fuel : forall round pb w, (length (w_orc w) < fuel)%nat ->
    goes tid p w (ROpen inf len clock round pb) (fst (opened_end inf len p (shm_loop t clock fuel round pb w))) (snd (opened_end inf len p (shm_loop t clock fuel round pb w))).
  Proof.
    induction fuel as [|fuel IH]; intros round pb w Hf; [lia|]. cbn [shm_loop].
    destruct (shm_name (clock round) pb) as [[name pb']|e| | |] eqn:En;
      try (cbn [opened_end fst snd failure]; apply goes_over; cbn [advance]; rewrite NM, En; reflexivity).
    destruct (sys_open t (shm_path name) true true true false w) as [[fd|e| | |] w'] eqn:Eo;
      try (cbn [opened_end fst snd failure]; apply goes_over; cbn [advance]; rewrite NM, En, Eo; reflexivity).
    - cbn [opened_end]. eapply goes_more; [cbn [advance]; rewrite NM, En, Eo; reflexivity|].
      eapply goes_more; [reflexivity|]. apply goes_sized.
    - cbn zeta. destruct (raw_os_error (last_os_error MemoryFd e)) as [c|] eqn:Er;
        [|cbn [opened_end fst snd failure]; apply goes_over; cbn [advance]; rewrite NM, En, Eo; cbn zeta; rewrite Er; reflexivity].
      destruct (c =? EEXIST) eqn:Ec;
        [|cbn [opened_end fst snd failure]; apply goes_over; cbn [advance]; rewrite NM, En, Eo; cbn zeta; rewrite Er, Ec; reflexivity].
      eapply goes_more; [cbn [advance]; rewrite NM, En, Eo; cbn zeta; rewrite Er, Ec; reflexivity|].
      apply IH. apply Z.eqb_eq in Ec. assert (e = EEXIST) by (cbn in Er; congruence). pose proof (open_consumed _ _ _ _ Eo H). lia.
  Qed.
  Lemma goes_opened tid p w inf len clock :
    goes tid p w (ROpen inf len clock 0 shm_template) (fst (opened_end inf len p (memfd_open t plat clock w))) (snd (opened_end inf len p (memfd_open t plat clock w))).
  Proof.
    destruct plat eqn:EP.
    - rewrite <- EP. unfold memfd_open. rewrite EP. destruct (os_call MemoryFd sys_memfd w) as [[fd|e| | |] w'] eqn:E; cbn [opened_end fst snd].
      2,3,4,5: apply goes_over; cbn [advance]; rewrite EP, E; reflexivity.
      eapply goes_more; [cbn [advance]; rewrite EP, E; reflexivity|]. apply goes_sized.
    - rewrite <- EP. unfold memfd_open. rewrite EP. apply goes_named; [exact EP|lia].
  Qed.
  Lemma map_ring_end inf len p clock w : ring_end inf len p (map_ring t plat clock len w) = opened_end inf len p (memfd_open t plat clock w).
  Proof.
    unfold map_ring, tmp_open. unfold sbind at 1. unfold sbind at 1.
    destruct (memfd_open t plat clock w) as [[fd|e| | |] w1]; try reflexivity. cbn [opened_end]. unfold sized_end, wrap_end.
    destruct (sys_ftruncate t fd (as_signed t len) w1) as [[u|e| | |] w2]; try reflexivity.
  Qed.
  Lemma goes_ring_new tid p w inf len clock :
    goes tid p w (ROpen inf len clock 0 shm_template) (fst (ring_end inf len p (map_ring t plat clock len w))) (snd (ring_end inf len p (map_ring t plat clock len w))).
  Proof. rewrite map_ring_end. apply goes_opened. Qed.

  Lemma pc_set_same p : pc_set_w p (pc_w p) = p.
  Proof. destruct p as [[] ? ?]. reflexivity. Qed.
  Lemma goes_start tid e s pd r p' : ts_pool s tid = None -> tstep t plat e s = (TNone, set_pool s (ts_p s) tid (Some pd)) ->
    goes tid (ts_p s) (pc_w (ts_p s)) pd r p' ->
    exists n s', alone t plat n tid e s = (r, s') /\ ts_p s' = p' /\ ts_pool s' tid = None /\ forall i, i <> tid -> ts_pool s' i = ts_pool s i.
  Proof.
    intros Hn E G. destruct (G (set_pool s (ts_p s) tid (Some pd))) as (n & s' & F & A & B & C).
    - rewrite pc_set_same. reflexivity.
    - apply put_same.
    - exists n, s'. unfold alone. rewrite E. cbn [set_pool ts_pool]. rewrite put_same. split; [exact F|]. split; [exact A|]. split; [exact B|].
      intros i Hi. rewrite (C i Hi). cbn [set_pool ts_pool]. apply put_other, Hi.
  Qed.
  Lemma ring_alone tid (inf : bool) hint clock s : ts_pool s tid = None ->
    let c := if inf then PInf hint clock else PRing hint clock in
    exists n s', alone t plat n tid (ERing tid inf hint clock) s = (as_tresult (fst (pstep t plat c (ts_p s))), s') /\ ts_p s' = snd (pstep t plat c (ts_p s)) /\
      ts_pool s' tid = None /\ forall i, i <> tid -> ts_pool s' i = ts_pool s i.
  Proof.
    intros Hn c.
    assert (E : (as_tresult (fst (pstep t plat c (ts_p s))), snd (pstep t plat c (ts_p s))) =
      match size_round (E:=error) t (size_alloc t) hint with
      | Ret len => ring_end inf len (ts_p s) (map_ring t plat clock len (pc_w (ts_p s)))
      | r => (TRing (failure r), ts_p s)
      end).
    { unfold c. destruct inf; cbn [pstep]; unfold new_ring, ring_new, sbind, sout.
      all: destruct (size_round t (size_alloc t) hint) as [len|e| | |]; try (cbn [fst snd as_tresult failure]; rewrite pc_set_same; reflexivity).
      all: destruct (map_ring t plat clock len (pc_w (ts_p s))) as [[pg|e| | |] w']; reflexivity. }
    destruct (pstep t plat c (ts_p s)) as [x p'] eqn:Ep. cbn [fst snd] in *. clear c Ep.
    destruct (size_round (E:=error) t (size_alloc t) hint) as [len|e| | |] eqn:Es.
    1: { pose proof (goes_ring_new tid (ts_p s) (pc_w (ts_p s)) inf len clock) as G. rewrite <- E in G. cbn [fst snd] in G.
         refine (goes_start tid _ s _ _ _ Hn _ G). cbn [tstep]. unfold begin. rewrite Hn, Es. reflexivity. }
    all: injection E as -> ->; exists 1%nat, s; unfold alone; cbn [tstep]; unfold begin; rewrite Hn, Es, Hn; auto.
  Qed.
  Lemma map_alone tid mut o fd s : ts_pool s tid = None ->
    let c := PMap (CMap mut o fd) in
    exists n s', alone t plat n tid (EMap tid mut o fd) s = (as_tresult (fst (pstep t plat c (ts_p s))), s') /\ ts_p s' = snd (pstep t plat c (ts_p s)) /\
      ts_pool s' tid = None /\ forall i, i <> tid -> ts_pool s' i = ts_pool s i.
  Proof.
    intros Hn c. pose proof (goes_map_if tid (ts_p s) (pc_w (ts_p s)) mut false o fd) as G.
    assert (E : (as_tresult (fst (pstep t plat c (ts_p s))), snd (pstep t plat c (ts_p s))) = map_end mut false o fd (ts_p s) (map_if t o fd (pc_w (ts_p s)))).
    { unfold c. cbn [pstep step]. change (a_w (pc_a (ts_p s))) with (pc_w (ts_p s)). destruct (map_if t o fd (pc_w (ts_p s))) as [[[m|]|e| | |] w']; reflexivity. }
    rewrite <- E in G. cbn [fst snd] in G. refine (goes_start tid _ s _ _ _ Hn _ G). cbn [tstep]. unfold begin. rewrite Hn. reflexivity.
  Qed.
  Lemma open_alone tid mut o path s : ts_pool s tid = None ->
    let c := PMap (COpen mut o path) in
    exists n s', alone t plat n tid (EOpen tid mut o path) s = (as_tresult (fst (pstep t plat c (ts_p s))), s') /\ ts_p s' = snd (pstep t plat c (ts_p s)) /\
      ts_pool s' tid = None /\ forall i, i <> tid -> ts_pool s' i = ts_pool s i.
  Proof.
    intros Hn c. set (p := ts_p s).
    assert (E : (as_tresult (fst (pstep t plat c p)), snd (pstep t plat c p)) =
      match io_call (file_open t (op_open o) path) (pc_w p) with
      | (Ret fd, w1) => map_end mut true o fd p (map_if t o fd w1)
      | (r, w1) => (TMap (failure r), pc_set_w p w1)
      end).
    { unfold c. cbn [pstep step]. change (a_w (pc_a p)) with (pc_w p). unfold open_if, sbind.
      destruct (io_call (file_open t (op_open o) path) (pc_w p)) as [[fd|e| | |] w1]; try reflexivity. unfold closing.
      destruct (map_if t o fd w1) as [[[m|]|e| | |] w']; reflexivity. }
    assert (G : goes tid p (pc_w p) (MOpen mut o path) (as_tresult (fst (pstep t plat c p))) (snd (pstep t plat c p))).
    { destruct (pstep t plat c p) as [x p']. cbn [fst snd] in *.
      destruct (io_call (file_open t (op_open o) path) (pc_w p)) as [[fd|e| | |] w1] eqn:Eo.
      2,3,4,5: injection E as -> ->; apply goes_over; cbn [advance]; rewrite Eo; reflexivity.
      eapply goes_more; [cbn [advance]; rewrite Eo; reflexivity|]. pose proof (goes_map_if tid p w1 mut true o fd) as G.
      rewrite <- E in G. exact G. }
    refine (goes_start tid _ s _ _ _ Hn _ G). cbn [tstep]. unfold begin. rewrite Hn. reflexivity.
  Qed.
  Lemma uninterrupted tid c e s : ts_pool s tid = None -> start_of tid c = Some e ->
    exists n s', alone t plat n tid e s = (as_tresult (fst (pstep t plat c (ts_p s))), s') /\ ts_p s' = snd (pstep t plat c (ts_p s)) /\
      ts_pool s' tid = None /\ forall i, i <> tid -> ts_pool s' i = ts_pool s i.
  Proof.
    intros Hn H. destruct c as [c|hint clock|hint clock|k o|k o|k]; cbn [start_of] in H; try discriminate H.
    - destruct c; try discriminate H; injection H as <-; [exact (open_alone tid mut o path s Hn)|exact (map_alone tid mut o fd s Hn)].
    - injection H as <-. exact (ring_alone tid false hint clock s Hn).
    - injection H as <-. exact (ring_alone tid true hint clock s Hn).
  Qed.
End Claims.
