(** Property theorems C101: other processes on Windows.

    Between any two calls of the program, and between any two system calls of
    its calls in progress, other processes may make, unlink, link, grow, cut
    and write any file ([AOther e], WinMapModel.v).  Every theorem about
    [reached_win], [wpreached], [wpfrom] and [wtreached] states (C66-C71,
    C77-C79, C85-C87, C95, C97-C100) holds with such acts in the history.
    Here: what the program sees of them.  ([wtreached t s0 s]: see
    PropertiesWinThread.v.) *)
From Coq Require Import Lia.
From Verif Require Import Base Spec ErrorModel RingSpec RingModel SizeModel OsModel OthersModel MapModel MapSpec ApiModel ApiSpec RingMapModel RingMapSpec OsProofs MemRingModel
  ProcModel ProcSpec OthersProofs OthersClaims WinModel WinSpec WinMapModel WinMapSpec WinSpace WinOthers WinThings WinHist WinMapClaims WinProcModel WinProcSpec WinProcProofs WinProcClaims
  WinThreadModel WinThreadSpec WinThreadInv WinThreadStep WinThreadClaims WinOthersClaims
  PropertiesSize PropertiesMap PropertiesRingMap PropertiesWin PropertiesWinMap PropertiesWinProc PropertiesWinThread.

(** Others do [e]; they do all of [es]. *)
Definition act_of (e : other) : wevent := WECall (WAct (AOther e)).
Definition acted (t : target) (e : other) (s : wtsys) : wtsys := snd (wtstep t (act_of e) s).
Definition wreading (t : target) (s : wtsys) (k i : Z) : out error got := reading t (wp_g (wt_p s)) k i.

Lemma reached_prog t s0 s : good_target t -> wtreached t s0 s -> prog_ok t (wp_g (wt_p s)).
Proof. intros Ht R. exact (wk_prog _ _ (wtok_wpok t s0 s (wtreached_ok t Ht s0 s R))). Qed.

(** The example: the one of PropertiesWinThread.v with a private copy of the
    file as thing 3, while thread 1 makes another ring. *)
Definition exo_events : list wevent := exw_events ++ WEMap 2 true (opt_copy mapmut_with_options) 4 :: repeat (WEGo 2) 6 ++ [WERing 1 false 70000; WEGo 1; WEGo 1].
Definition exo_state (q : list answer) : wtsys :=
  snd (wtrun (twin true) exo_events (widle (exw_s0 ([Grant 0; Grant 91; Grant 1048576; Grant 92; Grant 2097152] ++ q)))).
Lemma exo_reached q : exists s0, wtreached (twin true) s0 (exo_state q).
Proof. eexists. apply wtrun_reached; [apply wtr_start, exw_fresh|]. apply Forall_app. split; [apply exw_events_ok|wevents_ok]. Qed.
Example exo_case : map (fun k => option_map size_of (g_tab (wp_g (wt_p (exo_state []))) k)) [0; 1; 2; 3; 4] = [Some 4200; Some 5000; Some 262144; Some 10000; None] /\
  wt_pool (exo_state []) 1 <> None /\ map (fun k => wreading (twin true) (exo_state []) k 100) [0; 1; 2; 3] =
  [Ret (GByte 0); Ret (GByte (5100 mod 251)); Ret (GByte 0); Ret (GByte 100)].
Proof. vm_compute. split; [reflexivity|]. split; [discriminate|reflexivity]. Qed.

(** ** Nothing the program holds is taken from it: things, rings, calls in
    progress, descriptors, handles, views, reservations and mapped pages stay,
    whatever is done. *)
Theorem C101_kept : forall t s0 s e, good_target t -> wtreached t s0 s -> other_ok e ->
  let s' := acted t e s in let g := wp_g (wt_p s) in let g' := wp_g (wt_p s') in
  (forall k, g_tab g' k = g_tab g k) /\ (forall k, wp_ring (wt_p s') k = wp_ring (wt_p s) k) /\ (forall tid, wt_pool s' tid = wt_pool s tid) /\
  (forall fd, w_fd (n_w (g_s g')) fd = w_fd (n_w (g_s g)) fd) /\ (forall h, n_sec (g_s g') h = n_sec (g_s g) h) /\
  (forall a, n_view (g_s g') a = n_view (g_s g) a) /\ (forall a, n_resv (g_s g') a = n_resv (g_s g) a) /\
  forall p, match w_vm (n_w (g_s g)) p, w_vm (n_w (g_s g')) p with
            | Some x, Some x' => unmoved x x'
            | None, None => True
            | _, _ => False
            end.
Proof.
  intros t s0 s e Ht R He. pose proof (others_interfered t e (n_w (g_s (wp_g (wt_p s)))) He) as V.
  cbv zeta. do 3 (split; [reflexivity|]). split; [intros fd; change (w_fd (others t e (n_w (g_s (wp_g (wt_p s))))) fd = w_fd (n_w (g_s (wp_g (wt_p s)))) fd); rewrite (iv_fd _ _ V); reflexivity|].
  do 3 (split; [reflexivity|]). intros p. pose proof (iv_vm _ _ V p) as X.
  change (w_vm (n_w (g_s (wp_g (wt_p (acted t e s))))) p) with (w_vm (others t e (n_w (g_s (wp_g (wt_p s))))) p).
  destruct (w_vm (n_w (g_s (wp_g (wt_p s)))) p), (w_vm (others t e (n_w (g_s (wp_g (wt_p s))))) p); try exact X.
  destruct X as ((H1 & H2 & H3 & H4 & H5 & H6 & H7 & H8) & _). repeat split; assumption.
Qed.
Example C101_kept_case : let s' := acted (twin true) (OCut 7 0) (exo_state []) in
  option_map size_of (g_tab (wp_g (wt_p s')) 1) = Some 5000 /\ n_resv (g_s (wp_g (wt_p s'))) 2097152 = Some 64 /\
  option_map p_obj (w_vm (n_w (g_s (wp_g (wt_p s')))) 33) = Some 1 /\ o_size (w_obj (n_w (g_s (wp_g (wt_p s')))) 1) = 0.
Proof. vm_compute. auto. Qed.
Print Assumptions C101_kept.

(** ** A write to the file is seen through every map of it but copies, at
    once: exactly the bytes written, at the file offsets they were written to. *)
Theorem C101_written : forall t s0 s path off d sync k v i, good_target t -> wtreached t s0 s -> 0 <= off ->
  let g := wp_g (wt_p s) in
  g_tab g k = Some (TMap v) -> win_shares (v_prot v) = true -> 0 <= i < m_len (v_map v) -> v_off v + i < o_size (w_obj (n_w (g_s g)) (v_obj v)) ->
  w_fs (n_w (g_s g)) path = Some (v_obj v) ->
  wreading t (acted t (OWrite path off d sync) s) k i =
    if (off <=? v_off v + i) && (v_off v + i <? off + zlen d) then Ret (GByte (nth (Z.to_nat (v_off v + i - off)) d 0)) else wreading t s k i.
Proof. intros t s0 s path off d sync k v i Ht R. exact (wwritten t Ht path off d sync (wp_g (wt_p s)) k v i (reached_prog t s0 s Ht R)). Qed.
Example C101_written_case : let s' := acted (twin true) (OWrite 7 5100 [201; 202] false) (exo_state []) in
  map (wreading (twin true) s' 1) [99; 100; 101; 102] = [Ret (GByte (5099 mod 251)); Ret (GByte 201); Ret (GByte 202); Ret (GByte (5102 mod 251))].
Proof. vm_compute. reflexivity. Qed.
Print Assumptions C101_written.

(** ** What is done to other files, or only to names, is not seen; anonymous
    maps and rings no act reaches at all, in any number. *)
Theorem C101_elsewhere : forall t s0 s e k x i, good_target t -> wtreached t s0 s -> other_ok e ->
  g_tab (wp_g (wt_p s)) k = Some x -> ~ reaches (n_w (g_s (wp_g (wt_p s)))) e (obj_of x) ->
  wreading t (acted t e s) k i = wreading t s k i.
Proof. intros t s0 s e k x i Ht R. exact (welsewhere t Ht e (wp_g (wt_p s)) k x i (reached_prog t s0 s Ht R)). Qed.
(** The file is replaced by another of the same name: the map still shows the
    old one. *)
Definition exo_replaced : wtsys := snd (wtrun (twin true) (map act_of [OUnlink 7; OMake 7; OGrow 7 20000]) (exo_state [])).
Example C101_elsewhere_case : (exists s0, wtreached (twin true) s0 exo_replaced) /\
  (forall x, g_tab (wp_g (wt_p exo_replaced)) 1 = Some x -> ~ reaches (n_w (g_s (wp_g (wt_p exo_replaced)))) (OWrite 7 5100 [201; 202] true) (obj_of x)) /\
  wreading (twin true) (acted (twin true) (OWrite 7 5100 [201; 202] true) exo_replaced) 1 100 = Ret (GByte (5100 mod 251)).
Proof.
  split; [destruct (exo_reached []) as (s0 & R); exists s0; apply wtrun_reached; [exact R|wevents_ok]|]. split; [|vm_compute; reflexivity]. intros x H.
  assert (O : option_map obj_of (g_tab (wp_g (wt_p exo_replaced)) 1) = Some 1) by (vm_compute; reflexivity).
  assert (F : match w_fs (n_w (g_s (wp_g (wt_p exo_replaced)))) 7 with Some 1 => false | _ => true end = true) by (vm_compute; reflexivity).
  rewrite H in O. cbn [option_map] in O. injection O as O. unfold reaches. rewrite O. intros E. rewrite E in F. discriminate F.
Qed.
Print Assumptions C101_elsewhere.
Theorem C101_private : forall t s0 s es k x i, good_target t -> wtreached t s0 s -> Forall other_ok es ->
  g_tab (wp_g (wt_p s)) k = Some x -> private_thing x = true ->
  wreading t (snd (wtrun t (map act_of es) s)) k i = wreading t s k i.
Proof.
  intros t s0 s es k x i Ht R F Hk Hp. revert s R Hk. induction F as [|e es He F IH]; intros s R Hk; [reflexivity|]. cbn [map]. rewrite run_snd.
  rewrite (IH (snd (wtstep t (act_of e) s))); [|apply wtr_step; [exact R|split; [exact He|reflexivity]]|exact Hk].
  exact (wprivate t Ht e (wp_g (wt_p s)) k x i (reached_prog t s0 s Ht R) He Hk Hp).
Qed.
Example C101_private_case : let s := snd (wtrun (twin true) [WECall (WAct (ASet 0 7 66)); WECall (WCall 2 (RWrite [5; 6]))] (exo_state [])) in
  let s' := snd (wtrun (twin true) (map act_of [OCut 7 0; OUnlink 7; OMake 8; OLink 8 9; OGrow 9 500; OWrite 8 0 [1; 2] true]) s) in
  wreading (twin true) s' 0 7 = Ret (GByte 66) /\ map (wreading (twin true) s' 2) [0; 1; 131073] = [Ret (GByte 5); Ret (GByte 6); Ret (GByte 6)] /\
  wreading (twin true) s' 1 0 = Fault.
Proof. vm_compute. auto. Qed.
Print Assumptions C101_private.

(** ** A file that is cut below a map (if Windows lets them): a byte of the
    map can be loaded exactly if the page it lies on still begins before the
    end; behind the end it is 0, before it as it was. *)
Theorem C101_cut : forall t s0 s path sz k v i, good_target t -> wtreached t s0 s ->
  let g := wp_g (wt_p s) in
  g_tab g k = Some (TMap v) -> win_shares (v_prot v) = true -> 0 <= i < m_len (v_map v) -> 0 <= sz < o_size (w_obj (n_w (g_s g)) (v_obj v)) ->
  w_fs (n_w (g_s g)) path = Some (v_obj v) ->
  wreading t (acted t (OCut path sz) s) k i =
    if sz <=? t_page t * ((v_off v + i) / t_page t) then Fault else if v_off v + i <? sz then wreading t s k i else Ret (GByte 0).
Proof. intros t s0 s path sz k v i Ht R. exact (wcut t Ht path sz (wp_g (wt_p s)) k v i (reached_prog t s0 s Ht R)). Qed.
Example C101_cut_case : let s' := acted (twin true) (OCut 7 5100) (exo_state []) in
  map (wreading (twin true) s' 1) [99; 100; 3191; 3192] = [Ret (GByte (5099 mod 251)); Ret (GByte 0); Ret (GByte 0); Fault].
Proof. vm_compute. reflexivity. Qed.
Print Assumptions C101_cut.

(** ** Copies: from the first store to a page on, other processes change
    nothing of it, unless they cut the file. *)
Theorem C101_copy_kept : forall t s0 s k v i b x s' es i', good_target t -> wtreached t s0 s ->
  g_tab (wp_g (wt_p s)) k = Some (TMap v) -> v_mut v = true -> win_shares (v_prot v) = false ->
  wtstep t (WECall (WAct (ASet k i b))) s = (x, s') -> x = WTCall (WGot (Ret GNone)) ->
  0 <= i' < m_len (v_map v) -> (v_off v + i') / t_page t = (v_off v + i) / t_page t ->
  Forall other_ok es -> Forall (fun e => cuts e = false) es ->
  wreading t (snd (wtrun t (map act_of es) s')) k i' = wreading t s' k i'.
Proof.
  intros t s0 s k v i b x s' es i' Ht R Hk Hm Hs E -> Hi Hp F1 F2. pose proof (reached_prog t s0 s Ht R) as K.
  pose proof (wtok_wpok t s0 s (wtreached_ok t Ht s0 s R)) as Kp.
  cbn [wtstep wpstep] in E. assert (O : on_maps (wt_p s) (ASet k i b) = true).
  { cbn. destruct (wp_ring (wt_p s) k) as [h|] eqn:Hr; [|reflexivity]. destruct (wk_ring _ _ Kp _ _ Hr) as (_ & o & Ho). congruence. }
  rewrite O in E. destruct (act_step t (ASet k i b) (wp_g (wt_p s))) as [r g'] eqn:A. injection E as -> <-.
  unfold wreading. cbn [wt_p wp_g]. rewrite <- (wcopy_kept t Ht _ k v i b g' es i' K Hk Hm Hs A Hi Hp F1 F2). f_equal.
  set (s1 := {| wt_p := {| wp_g := g'; wp_ring := wp_ring (wt_p s) |}; wt_pool := wt_pool s |}). change g' with (wp_g (wt_p s1)) at 1. clearbody s1.
  clear. revert s1. induction es as [|e es IH]; intros s1; [reflexivity|]. cbn [map]. rewrite run_snd. rewrite IH. reflexivity.
Qed.
(** Byte 5000 of the file is on page 1, of which the program has a copy. *)
Example C101_copy_case : let r := wtstep (twin true) (WECall (WAct (ASet 3 5000 42))) (exo_state []) in
  let s' := snd (wtrun (twin true) (map act_of [OWrite 7 0 (repeat 9 9000) true; OGrow 7 30000; OUnlink 7]) (snd r)) in
  fst r = WTCall (WGot (Ret GNone)) /\ map (wreading (twin true) s' 3) [5000; 5001; 8191; 8192] = [Ret (GByte 42); Ret (GByte (5001 mod 251)); Ret (GByte (8191 mod 251)); Ret (GByte 9)] /\
  wreading (twin true) s' 1 0 = Ret (GByte 9).
Proof. vm_compute. auto. Qed.
Print Assumptions C101_copy_kept.
