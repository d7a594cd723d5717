(** One kernel call of a ring that is being made on macOS. *)
From Coq Require Import Lia.
From Verif Require Import Base Spec ErrorModel RingSpec RingModel SizeModel SizeProofs OsModel OthersModel MapModel MapSpec OsProofs MapProofs MapCreate MapOps
  ApiModel ApiSpec OthersProofs ApiProofs RingMapModel RingMapSpec MirrorProofs RingMapClaims RingProofs MemRingModel MemRingProofs
  ProcModel ProcSpec ProcFrame ProcProofs ThreadModel ThreadSpec ThreadFrame ThreadProofs ThreadInv
  MachModel MachSpec MachProofs MachClaims MachProcModel MachProcSpec MachProcProofs MachThreadModel MachThreadSpec MachThreadFrame.

Section Stages.
  Variable t : target.
  Hypothesis Ht : posix_target t.
  Notation P := (t_page t).
  Let Hg : good_target t := proj1 Ht.
  Let HP : 0 < P.
  Proof. exact (pow2_pos _ (proj1 (proj2 Hg))). Qed.

  (** The reserved pages. *)
  Record reserved (w : world) (pg n : Z) : Prop := {
    rs_n : 0 < n;
    rs_align : pg mod P = 0;
    rs_low : P <= pg;
    rs_high : pg + 2 * (P * n) <= 2 ^ t_bits t - P;
    rs_page : forall k, 0 <= k < 2 * n -> exists e, w_vm w (pg / P + k) = Some e
  }.
  (** The memory of the ring: nobody names it, zeros. *)
  Record mem0 (w : world) (n o : Z) : Prop := {
    m0_priv : priv w o;
    m0_size : o_size (w_obj w o) = P * n;
    m0_zero : forall i, o_data (w_obj w o) i = 0
  }.
  Definition space (w : world) (pg n : Z) : Prop := 2 * (P * n) < 2 ^ t_bits t /\ (n = 0 \/ reserved w pg n).
  Definition mring_ok (w : world) (ports : Z -> option mem_entry) (pd : mpending) : Prop :=
    match pd with
    | AAny _ len => is_usize t len /\ len mod P = 0 /\ (t_checks t = true \/ len < 2 ^ (t_bits t - 1))
    | AFixed _ len pg | AUndo len pg _ => exists n, len = P * n /\ space w pg n
    | AEntry _ len pg => exists n, len = P * n /\ space w pg n /\ (n = 0 \/ exists o, half t w pg n o n /\ mem0 w n o)
    | AMap _ len size pg port => size = len /\ exists n o, len = P * n /\ space w pg n /\ half t w pg n o n /\ mem0 w n o /\
        ports port = Some {| me_obj := o; me_idx := 0; me_pages := n |}
    end.

  Lemma half_reserved w pg n o j : half t w pg n o j -> reserved w pg n.
  Proof. intros [A B C D E F]. split; try assumption. intros k Hk. destruct (E k Hk) as (e & He & _). eauto. Qed.
  Lemma space_page w pg n q : space w pg n -> pg <= P * q < pg + 2 * (P * n) -> reserved w pg n /\ pg / P <= q < pg / P + 2 * n.
  Proof.
    intros [_ [->|R]] Hq; [lia|]. split; [exact R|]. apply (addr_page t Ht pg n q (rs_n _ _ _ R) (rs_align _ _ _ R)), Hq.
  Qed.
  Lemma space_mapped w pg n q : space w pg n -> pg <= P * q < pg + 2 * (P * n) -> exists e, w_vm w q = Some e.
  Proof.
    intros S Hq. destruct (space_page _ _ _ _ S Hq) as [R I]. destruct (rs_page _ _ _ R (q - pg / P) ltac:(lia)) as (e & He).
    exists e. replace q with (pg / P + (q - pg / P)) by lia. exact He.
  Qed.
  Lemma ring_space w ports pd : mring_ok w ports pd ->
    (exists inf len, pd = AAny inf len) \/ exists pg n, space w pg n /\ forall a, mpd_addr pd a <-> pg <= a < pg + 2 * (P * n).
  Proof.
    destruct pd; cbn [mring_ok mpd_addr]; eauto.
    - intros (n & -> & S). right. exists addr, n. split; [exact S|reflexivity].
    - intros (n & -> & S & _). right. exists addr, n. split; [exact S|reflexivity].
    - intros (_ & n & o & -> & S & _). right. exists addr, n. split; [exact S|reflexivity].
    - intros (n & -> & S). right. exists addr, n. split; [exact S|reflexivity].
  Qed.
  Lemma ring_mapped0 w ports pd q : mring_ok w ports pd -> mpd_page t pd q -> exists e, w_vm w q = Some e.
  Proof.
    intros M Hq. destruct (ring_space _ _ _ M) as [(inf & len & ->)|(pg & n & S & I)]; [destruct Hq|].
    apply I in Hq. exact (space_mapped _ _ _ _ S Hq).
  Qed.
  Lemma mpd_addr_page w ports pd a : mring_ok w ports pd -> mpd_addr pd a -> mpd_page t pd (a / P).
  Proof.
    intros M Ha. destruct (ring_space _ _ _ M) as [(inf & len & ->)|(pg & n & S & I)]; [destruct Ha|].
    apply I in Ha. apply I. destruct S as [_ [->|R]]; [lia|].
    apply (addr_page t Ht pg n _ (rs_n _ _ _ R) (rs_align _ _ _ R)). apply (page_in t Hg pg n a (rs_n _ _ _ R) (rs_align _ _ _ R)), Ha.
  Qed.

  (** Through steps of others. *)
  Lemma ring_kept w ports w' ports' pd : mring_ok w ports pd -> qkeeps (mpd_page t pd) w w' ->
    (forall port m, ports port = Some m -> ports' port = Some m) -> mring_ok w' ports' pd.
  Proof.
    intros M [Kv Ko] Kp.
    assert (S : forall pg n, (forall a, mpd_addr pd a <-> pg <= a < pg + 2 * (P * n)) -> space w pg n -> space w' pg n).
    { intros pg n I [S1 [->|R]]; split; auto. right. pose proof R as [R1 R2 R3 R4 R5]. split; try assumption. intros k Hk.
      destruct (R5 k Hk) as (e & He). destruct (Kv (pg / P + k) e) as (e' & He' & _); [|exact He|eauto].
      apply I. apply (addr_page t Ht pg n _ R1 R2). lia. }
    assert (H : forall pg n o, (forall a, mpd_addr pd a <-> pg <= a < pg + 2 * (P * n)) -> half t w pg n o n -> mem0 w n o ->
      half t w' pg n o n /\ mem0 w' n o).
    { intros pg n o I [A B C D E F] [M1 M2 M3].
      destruct (Ko o M1) as [T1 T2 T3 T4].
      { intros q e He Ho. apply I. apply (addr_page t Ht pg n _ A B). pose proof (F q e He Ho). lia. }
      split; [|split; [exact T1|congruence|intros i; rewrite T3; apply M3]]. split; try assumption.
      - intros k Hk. destruct (E k Hk) as (e & He & Hj).
        destruct (Kv (pg / P + k) e) as (e' & He' & (B1 & B2 & B3 & B4 & _ & B5 & _) & Cc); [|exact He|].
        { apply I. apply (addr_page t Ht pg n _ A B). lia. }
        exists e'. split; [exact He'|]. intros L. destruct (Hj L) as (A1 & A2 & A3 & A4 & A5 & A6).
        do 5 (split; [congruence|]). destruct Cc as [Cc|[Cc _]]; congruence.
      - intros p e' He Ho. destruct (T4 p e' He Ho) as (e & E0 & E1). exact (F p e E0 E1). }
    destruct pd; cbn [mring_ok mpd_addr] in *.
    - exact M.
    - destruct M as (n & -> & M). exists n. split; [reflexivity|]. apply S; [reflexivity|exact M].
    - destruct M as (n & -> & M & N). exists n. split; [reflexivity|]. split; [apply S; [reflexivity|exact M]|].
      destruct N as [N|(o & N1 & N2)]; [left; exact N|right]. exists o. apply H; [reflexivity|assumption|assumption].
    - destruct M as (-> & n & o & -> & M & N1 & N2 & N3). split; [reflexivity|]. exists n, o. split; [reflexivity|].
      split; [apply S; [reflexivity|exact M]|]. destruct (H addr n o) as [H1 H2]; [reflexivity|assumption|assumption|]. auto.
    - destruct M as (n & -> & M). exists n. split; [reflexivity|]. apply S; [reflexivity|exact M].
  Qed.

  (** ** One stage *)
  Record mstaged (pd : mpending) (s s' : mach) (oc : moutcome) : Prop := {
    sg_wf : wf (mc_w s');
    sg_fd : w_fd (mc_w s') = w_fd (mc_w s);
    sg_vm : forall q e, ~ mpd_page t pd q -> w_vm (mc_w s) q = Some e -> w_vm (mc_w s') q = Some e;
    sg_obj : forall o, priv (mc_w s) o -> (forall q e, w_vm (mc_w s) q = Some e -> p_obj e = o -> ~ mpd_page t pd q) -> safe' o (mc_w s) (mc_w s');
    sg_ports : forall port m, mc_ports s port = Some m -> mc_ports s' port = Some m;
    sg_out : match oc with
      | MMore pd' => mring_ok (mc_w s') (mc_ports s') pd' /\ forall q, mpd_page t pd' q -> mpd_page t pd q \/ w_vm (mc_w s) q = None
      | MMade inf pg len => exists n o, at_home t (mc_w s') (new_held inf pg len) n o (fun _ => 0) /\ h_fit t (new_held inf pg len) /\
          forall q, ring_page t (new_held inf pg len) q -> mpd_page t pd q
      | MOver r => forall k, r <> Ret k
      end
  }.

  Lemma failure_not {A B} (r : out error A) (k : B) : failure r <> Ret k.
  Proof. destruct r; discriminate. Qed.
  Lemma quiet_mstaged pd s s' oc : wf (mc_w s) -> quiet (mc_w s) (mc_w s') -> (forall port m, mc_ports s port = Some m -> mc_ports s' port = Some m) ->
    match oc with
    | MMore pd' => mring_ok (mc_w s) (mc_ports s') pd' /\ forall q, mpd_page t pd' q -> mpd_page t pd q \/ w_vm (mc_w s) q = None
    | MMade _ _ _ => False
    | MOver r => forall k, r <> Ret k
    end -> mstaged pd s s' oc.
  Proof.
    intros W Q Pr O. split.
    - apply grown_wf with (mc_w s); [exact (grown_quiet _ _ Q)|exact W].
    - exact (q_fd _ _ Q).
    - intros q e _ He. rewrite (q_vm _ _ Q). exact He.
    - intros o Pv _. exact (safe_quiet o _ _ Q Pv).
    - exact Pr.
    - destruct oc as [pd'|inf pg len|r]; try exact O; [|contradiction O]. destruct O as [O1 O2]. split; [|exact O2].
      apply (ring_kept (mc_w s) (mc_ports s')); [exact O1| |auto]. split.
      + intros q e _ He. exists e. rewrite (q_vm _ _ Q). split; [exact He|apply stays_refl].
      + intros o Pv _. exact (safe_quiet o _ _ Q Pv).
  Qed.
  Lemma grown_staged pd s s' oc : wf (mc_w s) -> grown (mc_w s) (mc_w s') ->
    (forall q e, ~ mpd_page t pd q -> w_vm (mc_w s) q = Some e -> w_vm (mc_w s') q = Some e) -> mc_ports s' = mc_ports s ->
    match oc with
    | MMore pd' => mring_ok (mc_w s') (mc_ports s') pd' /\ forall q, mpd_page t pd' q -> mpd_page t pd q \/ w_vm (mc_w s) q = None
    | MMade inf pg len => False
    | MOver r => forall k, r <> Ret k
    end -> mstaged pd s s' oc.
  Proof.
    intros W G V Pr O. split; try assumption.
    - exact (grown_wf _ _ G W).
    - exact (gw_fd _ _ G).
    - intros o Pv _. exact (grown_safe _ _ o G Pv).
    - intros port m. rewrite Pr. auto.
    - destruct oc; try exact O. contradiction O.
  Qed.

  Lemma madv_staged pd s oc s' : wf (mc_w s) -> mring_ok (mc_w s) (mc_ports s) pd -> madvance t pd s = (oc, s') -> mstaged pd s s' oc.
  Proof.
    intros W M E. pose proof (bits_half t Hg) as [B1 B2].
    assert (Same : forall op, (match op with MOver r => forall k, r <> Ret k | _ => False end) -> mstaged pd s s op).
    { intros op Hop. apply quiet_mstaged; [exact W|split; reflexivity|auto|]. destruct op; try contradiction Hop; exact Hop. }
    destruct pd as [inf len|inf len pg|inf len pg|inf len size pg port|len pg e0]; cbn [madvance mring_ok] in *.
    - destruct M as (U & D & Hc). unfold is_usize in U. assert (Ln : exists n, len = P * n) by (exists (len / P); pose proof (Z.div_mod len P ltac:(lia)); lia).
      destruct Ln as (n & En). unfold umul, wrap in E.
      destruct ((0 <=? 2 * len) && (2 * len <? 2 ^ t_bits t)) eqn:Eb.
      2: { assert (C : t_checks t = true) by (destruct Hc as [C|C]; [exact C|]; rewrite (proj2 (Z.leb_le 0 (2 * len))), (proj2 (Z.ltb_lt (2 * len) _)) in Eb by lia; discriminate Eb).
           rewrite C in E. apply pair_eq in E as [<- <-]. apply Same. intros k. apply failure_not. }
      apply andb_prop in Eb as [_ Eb]. apply Z.ltb_lt in Eb.
      destruct (kern_call RingAllocate (on_world (vm_allocate_anywhere t (2 * len))) s) as [r s1] eqn:Ek.
      apply kern_run in Ek. destruct r as [a|e| | |].
      2: { destruct Ek as (c & Ek & _). apply world_run in Ek as [Ek Ep]. apply anywhere_spec in Ek as [_ Q]. apply pair_eq in E as [<- <-].
           apply quiet_mstaged; [exact W|exact Q|rewrite Ep; auto|intros k; apply failure_not]. }
      2,3,4: apply world_run in Ek as [Ek _]; apply anywhere_spec in Ek as [_ []].
      apply world_run in Ek as [Ek Ep]. pose proof (anywhere_grown t Hg (2 * len) (mc_w s) ltac:(lia)) as G. rewrite Ek in G. cbn [snd] in G.
      apply anywhere_spec in Ek as [_ Ek]. apply pair_eq in E as [<- <-].
      destruct Ek as [(Z0 & -> & Q)|(N & R & Fr & NM)].
      + apply quiet_mstaged; [exact W|exact Q|rewrite Ep; auto|]. cbn [mring_ok]. split.
        * exists n. split; [exact En|]. split; [lia|left; nia].
        * intros q Hq. unfold mpd_page in Hq. cbn [mpd_addr] in Hq. lia.
      + assert (Np : npages t (2 * len) = 2 * n) by (rewrite En; replace (2 * (P * n)) with (P * (2 * n)) by lia; apply npages_mul, HP).
        apply range_ok_iff in R as (R1 & R2 & R3). rewrite Np in *. pose proof NM as [V _ _ _ _].
        assert (Hn : 0 < n) by nia.
        apply grown_staged; [exact W|exact G| |exact Ep|].
        * intros q e _ He. rewrite V. destruct (in_pages_cases (a / P) (2 * n) q) as [[_ I]|[-> _]]; [|exact He].
          rewrite (Fr q I) in He. discriminate He.
        * split.
          -- exists n. split; [exact En|]. split; [lia|right]. split; try assumption; [lia|]. intros k Hk. rewrite V, in_pages_yes by lia. eauto.
          -- intros q Hq. right. apply Fr. unfold mpd_page in Hq. cbn [mpd_addr] in Hq. rewrite En in Hq. exact (proj1 (addr_page t Ht a n q Hn R2) Hq).
    - destruct M as (n & En & S). destruct S as [S0 S].
      destruct (kern_call RingPrimary (on_world (vm_allocate_fixed t pg len)) s) as [r s1] eqn:Ek.
      apply kern_run in Ek. destruct r as [a|e| | |].
      2: { destruct Ek as (c & Ek & _). apply world_run in Ek as [Ek Ep]. apply fixed_spec in Ek as [_ Q]. apply pair_eq in E as [<- <-].
           apply quiet_mstaged; [exact W|exact Q|rewrite Ep; auto|]. split; [|auto]. exists n. split; [exact En|]. split; assumption. }
      2,3,4: apply world_run in Ek as [Ek _]; apply fixed_spec in Ek as [_ []].
      apply world_run in Ek as [Ek Ep]. assert (L0 : 0 <= len) by (destruct S as [->|S]; [lia|pose proof (rs_n _ _ _ S); nia]).
      pose proof (fixed_grown t Hg pg len (mc_w s) _ _ L0 Ek) as [G _]. apply fixed_spec in Ek as [_ Ek]. apply pair_eq in E as [<- <-].
      destruct Ek as [(Z0 & -> & Q)|(N & -> & R & NM)].
      + apply quiet_mstaged; [exact W|exact Q|rewrite Ep; auto|]. cbn [mring_ok]. assert (n = 0) by nia. subst n. split.
        * exists 0. split; [exact En|]. split; [split; [lia|auto]|auto].
        * intros q Hq. unfold mpd_page in Hq. cbn [mpd_addr] in Hq. lia.
      + assert (Np : npages t len = n) by (rewrite En; apply npages_mul, HP). rewrite Np in *.
        destruct S as [->|S]; [lia|]. pose proof S as [R1 R2 R3 R4 R5]. pose proof NM as [V Ob Nx Fd Fs].
        assert (Hf : half t (mc_w s1) pg n (w_next (mc_w s)) n).
        { split; try assumption.
          - intros k Hk. rewrite V. destruct (in_pages_cases (pg / P) n (pg / P + k)) as [[-> I]|[-> I]].
            + eexists. split; [reflexivity|]. intros _. cbn. split; [reflexivity|]. split; [rewrite Z.mod_small by lia; lia|]. auto.
            + destruct (R5 k Hk) as (e & He). exists e. split; [exact He|]. intros. lia.
          - intros q e. rewrite V. destruct (in_pages_cases (pg / P) n q) as [[-> I]|[-> I]]; [intros; lia|].
            intros He Ho. apply (wf_vm _ W) in He. lia. }
        assert (Sp : space (mc_w s1) pg n) by (split; [exact S0|right; exact (half_reserved _ _ _ _ _ Hf)]).
        apply grown_staged; [exact W|exact G| |exact Ep|].
        * intros q e Nq He. rewrite V, in_pages_no; [exact He|]. intros I. apply Nq. unfold mpd_page. cbn [mpd_addr]. rewrite En.
          apply (addr_page t Ht pg n q R1 R2). lia.
        * split; [|auto]. exists n. split; [exact En|]. split; [exact Sp|]. right. exists (w_next (mc_w s)). split; [exact Hf|]. split.
          -- split; [rewrite Nx; lia| |].
             ++ intros fd f. rewrite Fd. intros Hx. apply (wf_fd _ W) in Hx. lia.
             ++ intros path _. rewrite Fs. intros Hx. apply (wf_fs _ W) in Hx. lia.
          -- rewrite Ob, put_same. reflexivity.
          -- intros i. rewrite Ob, put_same. reflexivity.
    - destruct M as (n & En & S & Hh).
      destruct (kern_call RingEntry (make_memory_entry t len pg) s) as [r s1] eqn:Ek.
      apply kern_run in Ek. destruct r as [[size port]|e| | |].
      2: { destruct Ek as (c & Ek & _). apply entry_spec in Ek as (Q & _ & Ep). apply pair_eq in E as [<- <-].
           apply quiet_mstaged; [exact W|exact Q|rewrite Ep; auto|]. split; [|auto]. exists n. split; [exact En|exact S]. }
      2,3,4: apply entry_spec in Ek as (_ & _ & []).
      apply entry_spec in Ek as (Q & _ & El & N & Fr & e & He & Ep). apply pair_eq in E as [<- <-].
      assert (Np : npages t len = n) by (rewrite En; apply npages_mul, HP). rewrite Np in *.
      destruct Hh as [->|(o & Hf & M0)]; [lia|]. pose proof (hf_n _ _ _ _ _ _ Hf) as Hn.
      destruct (hf_page _ _ _ _ _ _ Hf 0 ltac:(lia)) as (e' & He' & Hj). destruct (Hj Hn) as (J1 & J2 & _).
      rewrite Z.add_0_r in He'. rewrite He' in He. injection He as <-. rewrite J1, J2, Z.mod_0_l in Ep by lia.
      apply quiet_mstaged; [exact W|exact Q| |].
      + intros port' m Hm. rewrite Ep. unfold put. destruct (Z.eqb_spec port' port) as [->|_]; [congruence|exact Hm].
      + split; [|auto]. cbn [mring_ok]. split; [congruence|]. exists n, o. split; [exact En|]. split; [exact S|]. split; [exact Hf|].
        split; [exact M0|]. rewrite Ep. apply put_same.
    - destruct M as (-> & n & o & En & S & Hf & M0 & Hm). pose proof Hf as [R1 R2 R3 R4 R5 R6].
      unfold uadd, wrap in E. rewrite (proj2 (Z.leb_le 0 (pg + len))), (proj2 (Z.ltb_lt (pg + len) _)) in E by nia. cbn [andb] in E.
      destruct (kern_call RingSecondary (vm_map_fixed t (pg + len) len port) s) as [r s1] eqn:Ek.
      apply kern_run in Ek. destruct r as [a|e| | |].
      2: { destruct Ek as (c & Ek & _). apply (vm_map_spec t _ _ _ _ _ _ _ Hm) in Ek as (Ep & _ & Q). apply pair_eq in E as [<- <-].
           apply quiet_mstaged; [exact W|exact Q|rewrite Ep; auto|]. split; [|auto]. exists n. split; [exact En|exact S]. }
      2,3,4: apply (vm_map_spec t _ _ _ _ _ _ _ Hm) in Ek as (_ & _ & []).
      apply (vm_map_spec t _ _ _ _ _ _ _ Hm) in Ek as (Ep & _ & _ & V & Ob & Nx & Fd & Fs). apply pair_eq in E as [<- <-].
      assert (Np : npages t len = n) by (rewrite En; apply npages_mul, HP). rewrite Np in V. cbn [me_obj me_idx] in V.
      assert (Hp : (pg + len) / P = pg / P + n) by (rewrite En, (Z.mul_comm P n); apply Z.div_add; lia). rewrite Hp in V.
      destruct M0 as [Pv Sz Ze].
      assert (Rg : ringed t (mc_w s1) pg n o (fun _ => 0)).
      { split; try assumption.
        - intros k Hk. rewrite V. destruct (in_pages_cases (pg / P + n) n (pg / P + k)) as [[-> I]|[-> I]].
          + eexists. split; [reflexivity|]. cbn. split; [reflexivity|]. split; [|auto]. rewrite <- (Z.mod_add k (-1) n), Z.mod_small by lia. lia.
          + destruct (R5 k Hk) as (e & He & Hj). exists e. split; [exact He|]. apply Hj. lia.
        - intros q e. rewrite V. destruct (in_pages_cases (pg / P + n) n q) as [[-> I]|[-> I]]; [intros; lia|].
          intros He Ho. pose proof (R6 q e He Ho). lia.
        - rewrite Ob. lia.
        - intros i _. rewrite Ob. apply Ze. }
      split.
      + destruct W as [W1 W2 W3 W4]. split.
        * intros q e. rewrite V, Nx. destruct (in_pages_cases (pg / P + n) n q) as [[-> I]|[-> I]]; [|apply W1].
          intros [= <-]. cbn. exact (pv_old _ _ Pv).
        * intros fd f. rewrite Fd, Nx. apply W2.
        * intros path x. rewrite Fs, Nx. apply W3.
        * rewrite Ob. exact W4.
      + exact Fd.
      + intros q e Nq He. rewrite V, in_pages_no; [exact He|]. intros I. apply Nq. unfold mpd_page. cbn [mpd_addr]. rewrite En.
        apply (addr_page t Ht pg n q R1 R2). lia.
      + intros o' Pv' Out. assert (No : o' <> o).
        { intros ->. destruct (R5 0 ltac:(lia)) as (e & He & Hj). destruct (Hj R1) as (J1 & _). apply (Out _ e He J1).
          unfold mpd_page. cbn [mpd_addr]. rewrite En. apply (addr_page t Ht pg n _ R1 R2). lia. }
        destruct Pv' as [P1 P2 P3]. split.
        * split; [rewrite Nx; exact P1|rewrite Fd; exact P2|rewrite Fs; exact P3].
        * rewrite Ob. reflexivity.
        * intros i. rewrite Ob. reflexivity.
        * intros q e. rewrite V. destruct (in_pages_cases (pg / P + n) n q) as [[-> I]|[-> I]]; [|eauto]. intros [= <-] Ho. cbn in Ho. congruence.
      + intros port' m' Hm'. rewrite Ep. exact Hm'.
      + exists n, o.
        assert (Pv1 : priv (mc_w s1) o) by (destruct Pv as [P1 P2 P3]; split; [rewrite Nx; exact P1|rewrite Fd; exact P2|rewrite Fs; exact P3]).
        assert (Al : h_alloc (new_held inf pg len) = {| ra_ptr := pg; ra_len := len |}) by (destruct inf; reflexivity).
        split; [split; rewrite ?Al; cbn [ra_ptr ra_len]; try assumption; lia|]. split.
        * destruct (new_fit t pg len ltac:(nia) ltac:(lia)) as [F1 F2]. destruct inf; assumption.
        * intros q. unfold ring_page, ring_addr. rewrite Al. intros Hq. exact Hq.
    - destruct M as (n & En & S0 & S). unfold umul, wrap in E.
      assert (L0 : 0 <= 2 * len) by (destruct S as [->|S]; [lia|pose proof (rs_n _ _ _ S); nia]).
      rewrite (proj2 (Z.leb_le 0 (2 * len))), (proj2 (Z.ltb_lt (2 * len) _)) in E by lia. cbn [andb] in E.
      pose proof (dealloc_grown t pg (2 * len) (mc_w s)) as G. unfold on_world in E.
      destruct (vm_deallocate t pg (2 * len) (mc_w s)) as [r w1] eqn:Ed. cbn [snd] in *. apply pair_eq in E as [<- <-].
      apply grown_staged; cbn [mc_w mc_ports]; [exact W|exact G| |reflexivity|discriminate].
      intros q e Nq He. unfold vm_deallocate, ask in Ed. destruct (w_orc (mc_w s)) as [|[c|c] orc]; try (injection Ed as <- <-; exact He).
      destruct (2 * len =? 0) eqn:Ez; apply pair_eq in Ed as [_ <-]; [exact He|]. apply Z.eqb_neq in Ez.
      destruct S as [->|R]; [lia|]. pose proof R as [R1 R2 R3 R4 R5]. cbn [w_vm set_vm set_orc]. rewrite R2, Z.add_0_l.
      assert (Np : npages t (2 * len) = 2 * n) by (rewrite En; replace (2 * (P * n)) with (P * (2 * n)) by lia; apply npages_mul, HP). rewrite Np.
      rewrite in_pages_no; [exact He|]. intros I. apply Nq. unfold mpd_page. cbn [mpd_addr]. rewrite En. apply (addr_page t Ht pg n q R1 R2). lia.
  Qed.
End Stages.
