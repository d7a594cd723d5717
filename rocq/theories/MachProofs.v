(** Proofs about the ring allocation on macOS and iOS. *)
From Coq Require Import Lia.
From Verif Require Import Base ErrorModel OsModel MapModel MapSpec RingMapModel RingMapSpec SizeProofs OsProofs MapProofs
  MirrorProofs MachModel MachSpec.

Lemma ask_consumed_refused {A} (k : Z -> ST Z A) w0 w e w' : consumed w0 w ->
  (forall a w r w', k a w = (r, w') -> exists x, r = Ret x) ->
  ask k w = (Err e, w') -> quiet w w' /\ refused_last w0 w'.
Proof.
  intros (q & C) Hk H. apply ask_inv2 in H as [(e' & [= <-] & Q & [[H1 H2]|H])|(a & o & Ho & H)].
  - split; [exact Q|]. left. exact H1.
  - split; [exact Q|]. right. exists q, e. rewrite C, H. reflexivity.
  - apply Hk in H as (x & [=]).
Qed.

Lemma mbind_run {E A B} (m : MT E A) (k : A -> MT E B) s r s' : mbind m k s = (r, s') ->
  (exists a s1, m s = (Ret a, s1) /\ k a s1 = (r, s')) \/
  (exists e, m s = (Err e, s') /\ r = Err e) \/
  ((m s = (Panic, s') /\ r = Panic) \/ (m s = (Fault, s') /\ r = Fault) \/ (m s = (Blocked, s') /\ r = Blocked)).
Proof.
  unfold mbind. destruct (m s) as [[a|e| | |] s1]; intros H.
  - left. eauto.
  - right. left. injection H as <- <-. eauto.
  - right. right. left. injection H as <- <-. auto.
  - right. right. right. left. injection H as <- <-. auto.
  - right. right. right. right. injection H as <- <-. auto.
Qed.

Lemma kern_run {A} op (m : MT Z A) s r s' : kern_call op m s = (r, s') ->
  match r with
  | Ret a => m s = (Ret a, s')
  | Err e => exists c, m s = (Err c, s') /\ e = error_kernel op c
  | Panic => m s = (Panic, s')
  | Fault => m s = (Fault, s')
  | Blocked => m s = (Blocked, s')
  end.
Proof. unfold kern_call. destruct (m s) as [[a|e| | |] s1]; intros [= <- <-]; eauto. Qed.

Lemma world_run {E A} (m : ST E A) s r s' : on_world m s = (r, s') ->
  m (mc_w s) = (r, mc_w s') /\ mc_ports s' = mc_ports s.
Proof. unfold on_world. destruct (m (mc_w s)) as [x w]. intros [= <- <-]. auto. Qed.

Section Mach.
  Variable t : target.
  Hypothesis Ht : good_target t.
  Notation P := (t_page t).
  Let HP : 0 < P.
  Proof. exact (pow2_pos _ (proj1 (proj2 Ht))). Qed.

  (** [w'] is [w] with the pages from [first] on showing object [o]. *)
  Definition shows (w w' : world) (first n o : Z) : Prop :=
    forall p, w_vm w' p = if in_pages first n p then Some (entry o (p - first) PRW true true) else w_vm w p.

  Record new_memory (w w' : world) (first n : Z) : Prop := {
    nm_vm : shows w w' first n (w_next w);
    nm_obj : w_obj w' = put (w_obj w) (w_next w) {| o_size := P * n; o_data := fun _ => 0; o_disk := fun _ => 0 |};
    nm_next : w_next w' = w_next w + 1;
    nm_fd : w_fd w' = w_fd w;
    nm_fs : w_fs w' = w_fs w
  }.

  Lemma enter_new len first w : new_memory w (enter first (npages t len) (w_next w) 0 (fresh_object t len w)) first (npages t len).
  Proof. split; try reflexivity. intros p. cbn. destruct (in_pages first (npages t len) p); [f_equal; f_equal; lia|reflexivity]. Qed.

  Lemma new_memory_orc w o w' first n : new_memory (set_orc w o) w' first n -> new_memory w w' first n.
  Proof. intros [A B C D E]. split; assumption. Qed.

  Lemma anywhere_spec size w r w' : vm_allocate_anywhere t size w = (r, w') ->
    consumed w w' /\
    match r with
    | Ret a => (size = 0 /\ a = 0 /\ quiet w w') \/
        (size <> 0 /\ range_ok t a size = true /\ (forall p, a / P <= p < a / P + npages t size -> w_vm w p = None) /\
         new_memory w w' (a / P) (npages t size))
    | Err _ => quiet w w'
    | _ => False
    end.
  Proof.
    intros H. unfold vm_allocate_anywhere in H. split.
    { revert H. apply ask_consumed. clear. intros a w r w' H. destruct (size =? 0); [injection H as <- <-; reflexivity|].
      destruct (negb (range_ok t a size) || _); injection H as <- <-; reflexivity. }
    apply ask_inv in H as [(e & -> & Q)|(a & o & Ho & H)]; [exact Q|].
    destruct (Z.eqb_spec size 0) as [->|N]; [injection H as <- <-; left; split; [reflexivity|]; split; [reflexivity|apply quiet_orc]|].
    destruct (range_ok t a size) eqn:R; cbn [negb orb] in H; [|injection H as <- <-; apply quiet_orc].
    destruct (free_range (set_orc w o) (a / P) (npages t size)) eqn:F; cbn [negb] in H; [|injection H as <- <-; apply quiet_orc].
    injection H as <- <-. right. split; [exact N|]. split; [exact R|]. split.
    - exact (proj1 (free_range_iff _ _ _) F).
    - exact (new_memory_orc w o _ _ _ (enter_new size (a / P) (set_orc w o))).
  Qed.

  Lemma fixed_spec addr size w r w' : vm_allocate_fixed t addr size w = (r, w') ->
    consumed w w' /\
    match r with
    | Ret a => (size = 0 /\ a = 0 /\ quiet w w') \/
        (size <> 0 /\ a = addr /\ range_ok t addr size = true /\ new_memory w w' (addr / P) (npages t size))
    | Err _ => quiet w w'
    | _ => False
    end.
  Proof.
    intros H. unfold vm_allocate_fixed in H. split.
    { revert H. apply ask_consumed. clear. intros a w r w' H. destruct (size =? 0); [injection H as <- <-; reflexivity|].
      destruct (negb (range_ok t addr size)); injection H as <- <-; reflexivity. }
    apply ask_inv in H as [(e & -> & Q)|(a & o & Ho & H)]; [exact Q|].
    destruct (Z.eqb_spec size 0) as [->|N]; [injection H as <- <-; left; split; [reflexivity|]; split; [reflexivity|apply quiet_orc]|].
    destruct (range_ok t addr size) eqn:R; cbn [negb] in H; [|injection H as <- <-; apply quiet_orc].
    injection H as <- <-. right. split; [exact N|]. split; [reflexivity|]. split; [reflexivity|].
    exact (new_memory_orc w o _ _ _ (enter_new size (addr / P) (set_orc w o))).
  Qed.

  Lemma dealloc_spec w0 addr n w r w' : addr mod P = 0 -> consumed w0 w -> vm_deallocate t addr (P * n) w = (r, w') ->
    consumed w0 w' /\ w_obj w' = w_obj w /\ w_next w' = w_next w /\ w_fd w' = w_fd w /\ w_fs w' = w_fs w /\
    match r with
    | Ret _ => forall p, w_vm w' p = if in_pages (addr / P) n p then None else w_vm w p
    | Err _ => quiet w w' /\ refused_last w0 w'
    | _ => False
    end.
  Proof.
    intros Ha C H. unfold vm_deallocate in H.
    assert (C' : consumed w w').
    { revert H. apply ask_consumed. clear. intros a w r w' H. destruct (P * n =? 0); injection H as <- <-; reflexivity. }
    split; [exact (consumed_trans _ _ _ C C')|].
    destruct r as [[]|e| | |].
    2:{ apply (ask_consumed_refused _ w0) in H; [|exact C|].
        - destruct H as [Q R]. pose proof Q as []. auto 10.
        - intros a w1 r1 w1' E. destruct (P * n =? 0); injection E as <- <-; eauto. }
    all: apply ask_inv in H as [(e & [=] & Q)|(a & o & Ho & H)].
    all: destruct (Z.eqb_spec (P * n) 0) as [E|E]; try discriminate H.
    - injection H as <-. assert (n = 0) by nia. subst n. cbn. do 4 (split; [reflexivity|]). intros p. rewrite in_pages_no by lia. reflexivity.
    - rewrite Ha, Z.add_0_l, (npages_mul t HP) in H. injection H as <-. cbn. auto 10.
  Qed.

  (** The cleanup after a failed call. *)
  Lemma cleanup_spec {A} s0 addr n (m : MT error A) s s1 e r s' :
    0 <= P * n < 2 ^ (t_bits t - 1) -> addr mod P = 0 -> m s = (Err e, s1) -> consumed (mc_w s0) (mc_w s1) ->
    or_cleanup t addr (P * n) m s = (r, s') ->
    r = Err e /\ mc_ports s' = mc_ports s1 /\ consumed (mc_w s0) (mc_w s') /\
    w_obj (mc_w s') = w_obj (mc_w s1) /\ w_next (mc_w s') = w_next (mc_w s1) /\
    w_fd (mc_w s') = w_fd (mc_w s1) /\ w_fs (mc_w s') = w_fs (mc_w s1) /\
    ((forall p, w_vm (mc_w s') p = if in_pages (addr / P) (2 * n) p then None else w_vm (mc_w s1) p) \/
     (w_vm (mc_w s') = w_vm (mc_w s1) /\ refused_last (mc_w s0) (mc_w s'))).
  Proof.
    intros Hl Ha Em C H. unfold or_cleanup in H. rewrite Em in H. pose proof (bits_half t Ht) as [HB _].
    assert (EM : umul (E:=error) t 2 (P * n) = Ret (P * (2 * n))).
    { unfold umul. rewrite wrap_in by lia. f_equal. lia. }
    rewrite EM in H. destruct (on_world (vm_deallocate t addr (P * (2 * n))) s1) as [r2 s2] eqn:E2.
    cbn [snd] in H. injection H as <- <-. apply world_run in E2 as [E2 EP].
    apply (dealloc_spec (mc_w s0)) in E2 as (C2 & O2 & N2 & F2 & S2 & V2); [|exact Ha|exact C].
    split; [reflexivity|]. split; [exact EP|]. split; [exact C2|]. do 4 (split; [assumption|]).
    destruct r2 as [[]|c| | |]; try contradiction; [left; exact V2|right].
    destruct V2 as [[V _ _ _ _] R]. auto.
  Qed.

  Lemma cleanup_other {A} addr len (m : MT error A) s r s1 : m s = (r, s1) ->
    match r with Err _ => False | _ => True end -> or_cleanup t addr len m s = (r, s1).
  Proof. intros E. unfold or_cleanup. rewrite E. destruct r; tauto. Qed.

  Lemma one_object_spec w first n o i : one_object w first n = Some (o, i) ->
    exists e, w_vm w first = Some e /\ p_obj e = o /\ p_idx e = i.
  Proof.
    unfold one_object. destruct (w_vm w first) as [e|]; [|discriminate].
    destruct (forallb _ _); [|discriminate]. intros [= <- <-]. eauto.
  Qed.

  Lemma entry_spec size addr s r s' : make_memory_entry t size addr s = (r, s') ->
    quiet (mc_w s) (mc_w s') /\ consumed (mc_w s) (mc_w s') /\
    match r with
    | Ret (l, port) => l = P * npages t size /\ size <> 0 /\ mc_ports s port = None /\
        exists e, w_vm (mc_w s) (addr / P) = Some e /\
          mc_ports s' = put (mc_ports s) port (Some {| me_obj := p_obj e; me_idx := p_idx e; me_pages := npages t size |})
    | Err _ => mc_ports s' = mc_ports s
    | _ => False
    end.
  Proof.
    unfold make_memory_entry. destruct (ask (fun a w => (Ret a, w)) (mc_w s)) as [ra w] eqn:EA. intros H.
    assert (Q : quiet (mc_w s) w /\ consumed (mc_w s) w /\ match ra with Ret _ | Err _ => True | _ => False end).
    { split; [|split].
      - apply ask_inv in EA as [(e & -> & Q)|(a & o & Ho & EA)]; [exact Q|]. injection EA as <- <-. apply quiet_orc.
      - revert EA. apply ask_consumed. clear. intros a w r w' [= <- <-]. reflexivity.
      - apply ask_inv in EA as [(e & -> & Q)|(a & o & Ho & EA)]; [exact I|]. injection EA as <- <-. exact I. }
    destruct Q as (Q & C & R). destruct ra as [port|c| | |]; try contradiction.
    2:{ injection H as <- <-. cbn. auto. }
    destruct (mc_ports s port) eqn:Ep; [injection H as <- <-; cbn; auto|].
    destruct (Z.eqb_spec size 0) as [->|N]; [injection H as <- <-; cbn; auto|].
    destruct (one_object w (addr / P) (npages t size)) as [[o i]|] eqn:EO; [|injection H as <- <-; cbn; auto].
    injection H as <- <-. apply one_object_spec in EO as (e & Ee & <- & <-). cbn. split; [exact Q|]. split; [exact C|].
    split; [reflexivity|]. split; [exact N|]. split; [exact Ep|]. exists e. split; [rewrite <- Ee, (q_vm _ _ Q); reflexivity|reflexivity].
  Qed.

  Lemma vm_map_spec addr size port m s r s' : mc_ports s port = Some m -> vm_map_fixed t addr size port s = (r, s') ->
    mc_ports s' = mc_ports s /\ consumed (mc_w s) (mc_w s') /\
    match r with
    | Ret _ => range_ok t addr size = true /\
        (forall p, w_vm (mc_w s') p = if in_pages (addr / P) (npages t size) p
           then Some (entry (me_obj m) (me_idx m + (p - addr / P)) PRW true true) else w_vm (mc_w s) p) /\
        w_obj (mc_w s') = w_obj (mc_w s) /\ w_next (mc_w s') = w_next (mc_w s) /\
        w_fd (mc_w s') = w_fd (mc_w s) /\ w_fs (mc_w s') = w_fs (mc_w s)
    | Err _ => quiet (mc_w s) (mc_w s')
    | _ => False
    end.
  Proof.
    intros Em H. unfold vm_map_fixed in H. rewrite Em in H. apply world_run in H as [H EP]. split; [exact EP|]. split.
    { revert H. apply ask_consumed. clear. intros a w r w' H.
      destruct (negb (range_ok t addr size) || _); injection H as <- <-; reflexivity. }
    apply ask_inv in H as [(e & -> & Q)|(a & o & Ho & H)]; [exact Q|].
    destruct (range_ok t addr size) eqn:R; cbn [negb orb] in H; [|injection H as <- <-; apply quiet_orc].
    destruct (me_pages m <? npages t size); [injection H as <- <-; apply quiet_orc|].
    injection H as <- <-. cbn. auto 10.
  Qed.

  (** ** The allocation *)
  Record mach_allocated (s s' : mach) (pg n : Z) : Prop := {
    ma_n : 0 < n;
    ma_align : pg mod P = 0;
    ma_low : P <= pg;
    ma_high : pg + 2 * (P * n) <= 2 ^ t_bits t - P;
    ma_free : forall p, pg / P <= p < pg / P + 2 * n -> w_vm (mc_w s) p = None;
    ma_vm : forall p, w_vm (mc_w s') p = two_views (pg / P) n (w_next (mc_w s) + 1) (w_vm (mc_w s)) p;
    ma_size : o_size (w_obj (mc_w s') (w_next (mc_w s) + 1)) = P * n;
    ma_zero : forall i, o_data (w_obj (mc_w s') (w_next (mc_w s) + 1)) i = 0;
    ma_port : exists port, mc_ports s port = None /\
      mc_ports s' = put (mc_ports s) port (Some {| me_obj := w_next (mc_w s) + 1; me_idx := 0; me_pages := n |})
  }.

  Definition kept_rest (w w' : world) : Prop :=
    w_fd w' = w_fd w /\ w_fs w' = w_fs w /\ w_next w <= w_next w' /\ forall o, o < w_next w -> w_obj w' o = w_obj w o.

  Lemma mach_map_ring_spec n s r s' : 0 <= P * n < 2 ^ (t_bits t - 1) ->
    mach_map_ring t (P * n) s = (r, s') ->
    consumed (mc_w s) (mc_w s') /\ kept_rest (mc_w s) (mc_w s') /\
    match r with
    | Ret pg => mach_allocated s s' pg n
    | Err e => exists k, mach_error k e /\
        ((forall p, w_vm (mc_w s') p = w_vm (mc_w s) p) \/
         ((0 < k)%nat /\ refused_last (mc_w s) (mc_w s') /\ left_mapped t (mc_w s) (mc_w s') (P * n))) /\
        if (k =? 3)%nat then one_port_more s s' else same_ports s s'
    | _ => False
    end.
  Proof.
    intros Hl H. unfold mach_map_ring in H. pose proof (bits_half t Ht) as [HB _].
    assert (Hn : 0 <= n) by nia.
    assert (EM : umul (E:=error) t 2 (P * n) = Ret (P * (2 * n))).
    { unfold umul. rewrite wrap_in by lia. f_equal. lia. }
    rewrite EM in H. unfold mbind at 1 in H. cbn [mout] in H. cbn beta iota in H. clear EM.
    (* reservation *)
    apply mbind_run in H as [(pg & s1 & E1 & H)|[(e & E1 & ->)|[[E1 ->]|[[E1 ->]|[E1 ->]]]]];
      apply kern_run in E1; [|destruct E1 as (c & E1 & ->)| | |];
      apply world_run in E1 as [E1 P1]; apply anywhere_spec in E1 as [C1 E1]; try contradiction.
    2:{ destruct E1 as [V O N F S']. split; [exact C1|]. split.
        - split; [exact F|]. split; [exact S'|]. split; [lia|]. intros o _. rewrite O. reflexivity.
        - exists 0%nat. split; [split; [lia|]; exists c; reflexivity|]. split; [left; intros p; rewrite V; reflexivity|].
          cbn. intros port. rewrite P1. reflexivity. }
    rewrite (npages_mul t HP) in E1.
    (* what holds after the reservation *)
    assert (A1 : pg mod P = 0 /\ (0 < n -> P <= pg /\ pg + 2 * (P * n) <= 2 ^ t_bits t - P) /\ kept_rest (mc_w s) (mc_w s1) /\
      (0 < n -> w_next (mc_w s1) = w_next (mc_w s) + 1) /\
      (forall p, pg / P <= p < pg / P + 2 * n -> w_vm (mc_w s) p = None) /\
      (forall p, ~ pg / P <= p < pg / P + 2 * n -> w_vm (mc_w s1) p = w_vm (mc_w s) p)).
    { destruct E1 as [(Z0 & -> & [V O N F S'])|(Z0 & R & Fr & [V O N F S'])].
      - assert (n = 0) by nia. subst n. split; [apply Zmod_0_l|]. split; [lia|]. split.
        + split; [exact F|]. split; [exact S'|]. split; [lia|]. intros o _. rewrite O. reflexivity.
        + split; [lia|]. split; [lia|]. intros p _. rewrite V. reflexivity.
      - apply range_ok_iff in R as (R1 & R2 & R3). rewrite (npages_mul t HP) in R3. split; [exact R2|]. split; [lia|]. split.
        + split; [exact F|]. split; [exact S'|]. split; [lia|]. intros o Ho. rewrite O, put_other by lia. reflexivity.
        + split; [auto|]. split; [exact Fr|]. intros p Hp. rewrite V, in_pages_no by lia. reflexivity. }
    clear E1. destruct A1 as (Ha & Rg & K1 & N1 & Fr & V1).
    (* every later failure *)
    assert (Fail : forall A k (m : MT error A) s2 s3 c r2 s4, (0 < k < 4)%nat ->
      m s2 = (Err (error_kernel (mach_stage k) c), s3) -> or_cleanup t pg (P * n) m s2 = (r2, s4) ->
      consumed (mc_w s) (mc_w s3) -> kept_rest (mc_w s) (mc_w s3) ->
      (forall p, ~ pg / P <= p < pg / P + 2 * n -> w_vm (mc_w s3) p = w_vm (mc_w s) p) ->
      (if (k =? 3)%nat then one_port_more s s3 else same_ports s s3) ->
      r2 = Err (error_kernel (mach_stage k) c) /\ consumed (mc_w s) (mc_w s4) /\ kept_rest (mc_w s) (mc_w s4) /\
      exists k', mach_error k' (error_kernel (mach_stage k) c) /\
        ((forall p, w_vm (mc_w s4) p = w_vm (mc_w s) p) \/
         ((0 < k')%nat /\ refused_last (mc_w s) (mc_w s4) /\ left_mapped t (mc_w s) (mc_w s4) (P * n))) /\
        if (k' =? 3)%nat then one_port_more s s4 else same_ports s s4).
    { intros A k m s2 s3 c r2 s4 Hk Em Ho C3 K3 V3 P3.
      destruct (cleanup_spec s pg n m s2 s3 _ r2 s4 Hl Ha Em C3 Ho) as (-> & EP & C4 & O4 & N4 & F4 & S4 & V4).
      split; [reflexivity|]. split; [exact C4|]. split; [unfold kept_rest in *; rewrite O4, N4, F4, S4; exact K3|].
      exists k. split; [split; [lia|]; exists c; reflexivity|]. split.
      - destruct V4 as [V4|[V4 R4]].
        + left. intros p. rewrite V4. destruct (in_pages_cases (pg / P) (2 * n) p) as [[-> I]|[-> I]]; [symmetry; apply Fr, I|apply V3, I].
        + right. split; [lia|]. split; [exact R4|]. exists (pg / P).
          replace (2 * (P * n)) with (P * (2 * n)) by lia. rewrite (npages_mul t HP).
          split; [exact Fr|]. intros p Hp. rewrite V4. apply V3, Hp.
      - unfold one_port_more, same_ports in *. rewrite EP. exact P3. }
    (* primary *)
    destruct (kern_call RingPrimary (on_world (vm_allocate_fixed t pg (P * n))) s1) as [r2 s2] eqn:E2.
    pose proof E2 as E2'. apply kern_run in E2'.
    apply mbind_run in H.
    destruct r2 as [pg2|e2| | |]; [|destruct E2' as (c2 & E2' & ->)| | |];
      apply world_run in E2' as [E2' P2]; apply fixed_spec in E2' as [C2 E2']; try contradiction.
    2:{ destruct E2' as [V O N F S'].
        destruct (or_cleanup t pg (P * n) (kern_call RingPrimary (on_world (vm_allocate_fixed t pg (P * n)))) s1) as [r3 s3] eqn:E3.
        destruct (Fail _ 1%nat _ _ _ c2 _ _ ltac:(lia) E2 E3) as (-> & B1 & B2 & B3).
        - exact (consumed_trans _ _ _ C1 C2).
        - unfold kept_rest. rewrite O, N, F, S'. exact K1.
        - intros p Hp. rewrite V. apply V1, Hp.
        - cbn. intros port. rewrite P2, P1. reflexivity.
        - destruct H as [(a & s5 & [=] & _)|[(e & [= <- <-] & ->)|[[[=] _]|[[[=] _]|[[=] _]]]]]. auto. }
    rewrite (cleanup_other pg (P * n) _ _ _ _ E2 I) in H.
    destruct H as [(a & s5 & [= <- <-] & H)|[(e & [=] & _)|[[[=] _]|[[[=] _]|[[=] _]]]]].
    rewrite (npages_mul t HP) in E2'.
    assert (Ea : pg2 mod P = 0 /\ (n = 0 -> pg2 mod P = 0) /\ (0 < n -> pg2 = pg)).
    { destruct E2' as [(Z0 & -> & _)|(Z0 & -> & _)].
      - split; [apply Zmod_0_l|]. split; [intros; apply Zmod_0_l|]. intros; nia.
      - auto. }
    assert (A2 : kept_rest (mc_w s) (mc_w s2) /\
      (forall p, ~ pg / P <= p < pg / P + 2 * n -> w_vm (mc_w s2) p = w_vm (mc_w s) p)).
    { destruct K1 as (K1a & K1b & K1c & K1d). destruct E2' as [(Z0 & _ & [V O N F S'])|(Z0 & _ & R & [V O N F S'])].
      - split.
        + split; [congruence|]. split; [congruence|]. split; [lia|]. intros o Ho. rewrite O. apply K1d, Ho.
        + intros p Hp. rewrite V. apply V1, Hp.
      - split.
        + split; [congruence|]. split; [congruence|]. split; [lia|]. intros o Ho. rewrite O, put_other by lia. apply K1d, Ho.
        + intros p Hp. rewrite V, in_pages_no by lia. apply V1, Hp. }
    destruct A2 as [K2 V2].
    (* entry *)
    destruct (kern_call RingEntry (make_memory_entry t (P * n) pg2) s2) as [r3 s3] eqn:E3.
    pose proof E3 as E3'. apply kern_run in E3'. apply mbind_run in H.
    assert (C12 : consumed (mc_w s) (mc_w s2)) by exact (consumed_trans _ _ _ C1 C2).
    destruct r3 as [[l port]|e3| | |]; [|destruct E3' as (c3 & E3' & ->)| | |];
      apply entry_spec in E3' as (Q3 & C3 & E3'); try contradiction.
    2:{ pose proof Q3 as [V O N F S'].
        destruct (Z.eq_dec n 0) as [->|Nz].
        - (* nothing was reserved: the cleanup is of size 0 *)
          destruct (or_cleanup t pg2 (P * 0) (kern_call RingEntry (make_memory_entry t (P * 0) pg2)) s2) as [r4 s4] eqn:E4.
          destruct (cleanup_spec s pg2 0 _ s2 s3 _ r4 s4 Hl (proj1 Ea) E3 (consumed_trans _ _ _ C12 C3) E4)
            as (-> & EP & C4 & O4 & N4 & F4 & S4 & V4).
          destruct H as [(a & s5 & [=] & _)|[(e & [= <- <-] & ->)|[[[=] _]|[[[=] _]|[[=] _]]]]].
          split; [exact C4|]. split; [unfold kept_rest in *; rewrite O4, N4, F4, S4, O, N, F, S'; exact K2|].
          exists 2%nat. split; [split; [lia|]; exists c3; reflexivity|]. split.
          + left. intros p. destruct V4 as [V4|[V4 _]]; rewrite V4; [rewrite in_pages_no by lia|]; rewrite V; apply V2; lia.
          + cbn. intros port. rewrite EP, E3', P2, P1. reflexivity.
        - assert (pg2 = pg) by (apply Ea; lia). subst pg2.
          destruct (or_cleanup t pg (P * n) (kern_call RingEntry (make_memory_entry t (P * n) pg)) s2) as [r4 s4] eqn:E4.
          destruct (Fail _ 2%nat _ _ _ c3 _ _ ltac:(lia) E3 E4) as (-> & B1 & B2 & B3).
          + exact (consumed_trans _ _ _ C12 C3).
          + unfold kept_rest. rewrite O, N, F, S'. exact K2.
          + intros p Hp. rewrite V. apply V2, Hp.
          + cbn. intros port. rewrite E3', P2, P1. reflexivity.
          + destruct H as [(a & s5 & [=] & _)|[(e & [= <- <-] & ->)|[[[=] _]|[[[=] _]|[[=] _]]]]]. auto. }
    rewrite (cleanup_other pg2 (P * n) _ _ _ _ E3 I) in H.
    destruct H as [(a & s5 & [= <- <-] & H)|[(e & [=] & _)|[[[=] _]|[[[=] _]|[[=] _]]]]].
    destruct E3' as (-> & Nz & Pn & ent & Eent & P3). rewrite (npages_mul t HP) in *.
    assert (n0 : 0 < n) by nia. assert (pg2 = pg) by (apply Ea; exact n0). subst pg2.
    destruct (Rg n0) as [R1 R3]. specialize (N1 n0).
    destruct E2' as [(Z0 & _)|(_ & _ & R & M2)]; [nia|]. pose proof M2 as [MV MO MN MF MS].
    assert (Eentry : p_obj ent = w_next (mc_w s) + 1 /\ p_idx ent = 0).
    { rewrite MV, in_pages_yes in Eent by lia. injection Eent as <-. cbn. split; lia. }
    destruct Eentry as [Eo Ei]. rewrite Eo, Ei in P3. rewrite P2, P1 in P3, Pn.
    unfold mbind at 1 in H. assert (EA : uadd (E:=error) t pg (P * n) = Ret (pg + P * n)).
    { unfold uadd. apply wrap_in. lia. }
    cbn [mout] in H. rewrite EA in H. cbn beta iota in H.
    destruct (kern_call RingSecondary (vm_map_fixed t (pg + P * n) (P * n) port) s3) as [r4 s4] eqn:E4.
    pose proof E4 as E4'. apply kern_run in E4'. apply mbind_run in H.
    assert (Epo : mc_ports s3 port = Some {| me_obj := w_next (mc_w s) + 1; me_idx := 0; me_pages := n |})
      by (rewrite P3; apply put_same).
    pose proof (consumed_trans _ _ _ C12 C3) as C123. pose proof Q3 as [QV QO QN QF QS].
    destruct r4 as [half|e4| | |]; [|destruct E4' as (c4 & E4' & ->)| | |];
      apply (vm_map_spec _ _ _ _ _ _ _ Epo) in E4' as (P4 & C4 & E4'); try contradiction.
    2:{ pose proof E4' as [V O N F S'].
        destruct (or_cleanup t pg (P * n) (kern_call RingSecondary (vm_map_fixed t (pg + P * n) (P * n) port)) s3) as [r5 s5] eqn:E5.
        destruct (Fail _ 3%nat _ _ _ c4 _ _ ltac:(lia) E4 E5) as (-> & B1 & B2 & B3).
        - exact (consumed_trans _ _ _ C123 C4).
        - unfold kept_rest. rewrite O, N, F, S', QO, QN, QF, QS. exact K2.
        - intros p Hp. rewrite V, QV. apply V2, Hp.
        - cbn. exists port. split; [exact Pn|]. rewrite P4, P3. split; [rewrite put_same; discriminate|].
          intros q Hq. apply put_other, Hq.
        - destruct H as [(a & s6 & [=] & _)|[(e & [= <- <-] & ->)|[[[=] _]|[[[=] _]|[[=] _]]]]]. auto. }
    rewrite (cleanup_other pg (P * n) _ _ _ _ E4 I) in H.
    destruct H as [(a & s6 & [= <- <-] & H)|[(e & [=] & _)|[[[=] _]|[[[=] _]|[[=] _]]]]].
    assert (G : Ret pg = r /\ s4 = s') by (injection H as <- <-; auto). destruct G as [<- <-].
    destruct E4' as (R4 & V4 & O4 & N4 & F4 & S4). cbn [me_obj me_idx] in V4. rewrite (npages_mul t HP) in V4.
    split; [exact (consumed_trans _ _ _ C123 C4)|].
    split; [unfold kept_rest in *; rewrite O4, N4, F4, S4, QO, QN, QF, QS; exact K2|].
    assert (Eh : (pg + P * n) / P = pg / P + n) by (rewrite (Z.mul_comm P n), Z.div_add by lia; reflexivity).
    rewrite Eh in V4.
    split; try assumption.
    - intros p. rewrite V4. unfold two_views. cbn [Z.add].
      destruct (in_pages_cases (pg / P + n) n p) as [[-> Ip]|[-> Ip]].
      + rewrite in_pages_no by lia. f_equal.
      + rewrite QV, MV. destruct (in_pages_cases (pg / P) n p) as [[-> Iq]|[-> Iq]].
        * f_equal. f_equal. exact N1.
        * apply V1. lia.
    - rewrite O4, QO, MO, <- N1, put_same. reflexivity.
    - intros i. rewrite O4, QO, MO, <- N1, put_same. reflexivity.
    - exists port. rewrite P4. auto.
  Qed.
End Mach.
