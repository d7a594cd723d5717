(** Proofs about the page-size cache (C05). *)
From Coq Require Import Lia.
From Verif Require Import Base SysInfoModel.

Section Cache.
  Variable t : target.
  Hypothesis Hg : good_target t.
  Variable prog : nat -> list call.

  Definition value (c : call) : Z := match c with PageSize => t_page t | AllocSize => t_alloc t end.

  Lemma sizes : 0 < t_page t < 2 ^ 32 /\ 0 < t_alloc t < 2 ^ 32.
  Proof. destruct Hg as (_ & _ & _ & A & B & C). lia. Qed.

  Lemma as_u32_id x : 0 < x < 2 ^ 32 -> as_u32 x = x.
  Proof. intros H. unfold as_u32. apply Z.mod_small. lia. Qed.

  Definition mem_ok (m : cells) : Prop :=
    Forall (eq (t_page t)) (c_page m) /\ Forall (eq (t_alloc t)) (c_alloc m).

  Definition pending (th : thread) : list call :=
    match th_pc th with Idle => [] | AtInfo c | AtStorePage c _ _ | AtStoreAlloc c _ _ => [c] end.

  Definition th_ok (m : cells) (i : nat) (th : thread) : Prop :=
    Forall (fun x => snd (fst x) = value (fst (fst x)) /\ (snd x <= 4)%nat) (th_res th) /\
    map (fun x => fst (fst x)) (th_res th) ++ pending th ++ th_todo th = prog i /\
    (th_seen_page th = true -> c_page m <> []) /\ (th_seen_alloc th = true -> c_alloc m <> []) /\
    match th_pc th with
    | Idle => th_cur th = 0%nat /\ (th_info th = 0%nat \/
              (th_info th = 1%nat /\ th_seen_page th = true /\ th_seen_alloc th = true))
    | AtInfo _ => th_cur th = 1%nat /\ th_info th = 0%nat
    | AtStorePage _ p a => th_cur th = 2%nat /\ th_info th = 1%nat /\ p = t_page t /\ a = t_alloc t
    | AtStoreAlloc _ p a => th_cur th = 3%nat /\ th_info th = 1%nat /\ p = t_page t /\ a = t_alloc t /\ th_seen_page th = true
    end.

  Lemma th_ok_mono m m' i th : (c_page m <> [] -> c_page m' <> []) -> (c_alloc m <> [] -> c_alloc m' <> []) ->
    th_ok m i th -> th_ok m' i th.
  Proof. unfold th_ok. intros A B (H1 & H2 & H3 & H4 & H5). auto 10. Qed.

  Lemma load_ok stored x seen ch v seen' : 0 < x -> Forall (eq x) stored ->
    load stored seen ch = Some (v, seen') ->
    (v = 0 /\ seen = false /\ seen' = false) \/ (v = x /\ seen' = true /\ stored <> []).
  Proof.
    intros Hx F. destruct ch as [|k]; cbn.
    - destruct seen; [discriminate|]. intros H. injection H as <- <-. auto.
    - destruct (nth_error stored k) as [w|] eqn:E; [|discriminate]. intros H. injection H as <- <-. right.
      apply nth_error_In in E. rewrite Forall_forall in F. rewrite (F w E). repeat split. intros ->. destruct E.
  Qed.

  Lemma app_ne {A} (l : list A) x : l ++ [x] <> [].
  Proof. destruct l; discriminate. Qed.

  Lemma step_ok m i th ch m' th' : mem_ok m -> th_ok m i th -> thread_step t ch m th = Some (m', th') ->
    mem_ok m' /\ th_ok m' i th' /\ (c_page m <> [] -> c_page m' <> []) /\ (c_alloc m <> [] -> c_alloc m' <> []).
  Proof.
    intros [Mp Ma] (H1 & H2 & H3 & H4 & H5) E. destruct sizes as [Sp Sa].
    unfold thread_step, pending in *. destruct (th_pc th) as [|c|c p a|c p a] eqn:Epc.
    - destruct H5 as [Hc Hi]. destruct (th_todo th) as [|[|] rest] eqn:Et; [discriminate E| |].
      + destruct (load (c_page m) (th_seen_page th) ch) as [[v seen]|] eqn:L; [|discriminate E].
        destruct (load_ok _ _ _ _ _ _ (proj1 Sp) Mp L) as [(-> & S0 & ->)|(-> & -> & Ne)].
        * cbn [Z.eqb] in E. injection E as <- <-. split; [split; assumption|]. split; [|auto].
          unfold th_ok, pending. cbn. split; [exact H1|]. split; [exact H2|]. split; [discriminate|]. split; [exact H4|].
          split; [congruence|]. destruct Hi as [Hi|(_ & Hi & _)]; [exact Hi|congruence].
        * destruct (t_page t =? 0) eqn:Z0; [apply Z.eqb_eq in Z0; lia|]. injection E as <- <-.
          split; [split; assumption|]. split; [|auto].
          unfold th_ok, pending. cbn. split; [apply Forall_app; split; [exact H1|constructor; [split; [reflexivity|cbn; lia]|constructor]]|].
          split; [rewrite map_app, <- app_assoc; exact H2|]. split; [auto|]. split; [exact H4|]. split; [reflexivity|].
          destruct Hi as [Hi|(Hi & _ & Hi2)]; [left; exact Hi|right; auto].
      + destruct (load (c_alloc m) (th_seen_alloc th) ch) as [[v seen]|] eqn:L; [|discriminate E].
        destruct (load_ok _ _ _ _ _ _ (proj1 Sa) Ma L) as [(-> & S0 & ->)|(-> & -> & Ne)].
        * cbn [Z.eqb] in E. injection E as <- <-. split; [split; assumption|]. split; [|auto].
          unfold th_ok, pending. cbn. split; [exact H1|]. split; [exact H2|]. split; [exact H3|]. split; [discriminate|].
          split; [congruence|]. destruct Hi as [Hi|(_ & _ & Hi)]; [exact Hi|congruence].
        * destruct (t_alloc t =? 0) eqn:Z0; [apply Z.eqb_eq in Z0; lia|]. injection E as <- <-.
          split; [split; assumption|]. split; [|auto].
          unfold th_ok, pending. cbn. split; [apply Forall_app; split; [exact H1|constructor; [split; [reflexivity|cbn; lia]|constructor]]|].
          split; [rewrite map_app, <- app_assoc; exact H2|]. split; [exact H3|]. split; [auto|]. split; [reflexivity|].
          destruct Hi as [Hi|(Hi & Hi2 & _)]; [left; exact Hi|right; auto].
    - destruct H5 as [Hc Hi]. injection E as <- <-. split; [split; assumption|]. split; [|auto].
      unfold th_ok, pending. cbn. rewrite !as_u32_id by assumption. repeat split; auto; congruence.
    - destruct H5 as (Hc & Hi & -> & ->). injection E as <- <-. split.
      { split; cbn; [|assumption]. apply Forall_app. split; [assumption|repeat constructor]. }
      split; [|split; [intros _; apply app_ne|auto]].
      unfold th_ok, pending. cbn. split; [exact H1|]. split; [exact H2|]. split; [intros _; apply app_ne|].
      split; [exact H4|]. auto.
    - destruct H5 as (Hc & Hi & -> & -> & Hs). injection E as <- <-. split.
      { split; cbn; [assumption|]. apply Forall_app. split; [assumption|repeat constructor]. }
      split; [|split; [auto|intros _; apply app_ne]].
      unfold th_ok, pending. cbn.
      split; [apply Forall_app; split; [exact H1|]; constructor; [split; [destruct c; reflexivity|cbn; lia]|constructor]|].
      split; [rewrite map_app, <- app_assoc; exact H2|]. split; [exact H3|]. split; [intros _; apply app_ne|].
      split; [reflexivity|]. right. auto.
  Qed.

  Definition sys_ok (s : sys) : Prop := mem_ok (s_mem s) /\ forall i, th_ok (s_mem s) i (s_th s i).

  Lemma sys_step_ok s i ch s' : sys_ok s -> sys_step t i ch s = Some s' -> sys_ok s'.
  Proof.
    intros [M T] E. unfold sys_step in E.
    destruct (thread_step t ch (s_mem s) (s_th s i)) as [[m th]|] eqn:E1; [|discriminate E]. injection E as <-.
    destruct (step_ok _ _ _ _ _ _ M (T i) E1) as (M' & T' & A & B). split; cbn; [exact M'|].
    intros j. destruct (Nat.eqb j i) eqn:J; [apply Nat.eqb_eq in J; subst j; exact T'|].
    exact (th_ok_mono _ _ _ _ A B (T j)).
  Qed.

  Lemma sys_run_ok sched : forall s s', sys_ok s -> sys_run t sched s = Some s' -> sys_ok s'.
  Proof.
    induction sched as [|[i ch] sched IH]; intros s s' H E; cbn in E.
    - injection E as <-. exact H.
    - destruct (sys_step t i ch s) as [s1|] eqn:E1; [|discriminate E].
      exact (IH _ _ (sys_step_ok _ _ _ _ H E1) E).
  Qed.

  Lemma sys_init_ok : sys_ok (sys_init prog).
  Proof.
    split; [split; constructor|]. intros i. unfold th_ok, pending. cbn. repeat split; auto; discriminate.
  Qed.

  (** A thread with something to do can always take a step. *)
  Lemma enabled s i : sys_ok s -> th_pc (s_th s i) <> Idle \/ th_todo (s_th s i) <> [] ->
    exists ch s', sys_step t i ch s = Some s'.
  Proof.
    intros [M T] H. destruct (T i) as (_ & _ & H3 & H4 & _). unfold sys_step, thread_step.
    destruct (th_pc (s_th s i)) as [|c|c p a|c p a] eqn:Epc; [|exists Initial; eexists; reflexivity..].
    destruct H as [H|H]; [congruence|]. destruct (th_todo (s_th s i)) as [|[|] rest]; [congruence| |].
    - destruct (th_seen_page (s_th s i)).
      + exists (Stored 0). specialize (H3 eq_refl). destruct (c_page (s_mem s)) as [|v l]; [congruence|]. cbn.
        destruct (v =? 0); eexists; reflexivity.
      + exists Initial. cbn. eexists. reflexivity.
    - destruct (th_seen_alloc (s_th s i)).
      + exists (Stored 0). specialize (H4 eq_refl). destruct (c_alloc (s_mem s)) as [|v l]; [congruence|]. cbn.
        destruct (v =? 0); eexists; reflexivity.
      + exists Initial. cbn. eexists. reflexivity.
  Qed.
End Cache.
