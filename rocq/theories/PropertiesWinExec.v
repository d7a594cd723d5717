(** Property theorems C105, continued: conversions on Windows. *)
From Verif Require Import Base ErrorModel SizeModel OsModel OthersModel MapModel MapSpec ProcModel
  WinModel WinSpec WinMapModel WinMapSpec WinThings WinConvert WinProcModel WinProcSpec WinThreadModel WinThreadSpec WinThreadClaims WinOthersClaims
  PropertiesSize PropertiesWin PropertiesWinThread PropertiesWinOthers PropertiesExec.

(** A conversion that succeeds on Windows, in either direction, in any state of
    any interleaving: the pages of the map can be read and written, not
    executed, and are otherwise as before; no other page changes. *)
Theorem C105_converted_windows : forall t s0 s a k v x g', good_target t -> wtreached t s0 s -> g_tab (wp_g (wt_p s)) k = Some (TMap v) ->
  0 < m_len (v_map v) -> a = AToMut k /\ v_mut v = false \/ a = AToMap k /\ v_mut v = true -> act_step t a (wp_g (wt_p s)) = (Ret x, g') ->
  forall p, (own_page t (v_map v) p -> exists e e', w_vm (n_w (g_s (wp_g (wt_p s)))) p = Some e /\ w_vm (n_w (g_s g')) p = Some e' /\
               p_r e' = true /\ p_w e' = true /\ p_x e' = false /\ p_obj e' = p_obj e /\ p_idx e' = p_idx e /\ p_shared e' = p_shared e /\
               p_copy e' = p_copy e /\ p_lock e' = p_lock e /\ p_maxw e' = p_maxw e) /\
            (~ own_page t (v_map v) p -> w_vm (n_w (g_s g')) p = w_vm (n_w (g_s (wp_g (wt_p s)))) p).
Proof.
  intros t s0 s a k v x g' Ht R Hk L Ha H p.
  destruct (convert_act t Ht a k v _ x g' (po_thing _ _ (reached_prog t s0 s Ht R) _ _ Hk) Hk L Ha H p) as [A B]. split; [|exact B].
  intros Hp. destruct (A Hp) as (e & E & E'). exists e. eexists. split; [exact E|]. split; [exact E'|]. cbn. auto 12.
Qed.

(** An anonymous executable map on Windows was not made for writing; it cannot
    be converted.  A map made for writing can, both ways. *)
Example C105_converted_windows_case :
  let go h := wp_g (wt_p (snd (wtrun (twin true) h (widle (ex_win [] [Grant 88; Grant 131072; Grant 0; Grant 0; Grant 0]))))) in
  let made o := go (WEAlloc 1 true o :: repeat (WEGo 1) 3) in
  let g := made (opt_len (ExtExact 100) mapmut_with_options) in
  let '(r1, g1) := act_step (twin true) (AToMap 0) g in
  let '(r2, g2) := act_step (twin true) (AToMut 0) g1 in
  option_map size_of (g_tab g 0) = Some 100 /\ r1 = Ret GNone /\ r2 = Ret GNone /\
  page_bits (n_w (g_s g1)) 32 = Some (true, false) /\ page_bits (n_w (g_s g2)) 32 = Some (true, false) /\
  page_bits (n_w (g_s (made exec_options))) 32 = Some (false, true) /\
  fst (act_step (twin true) (AToMap 0) (made exec_options)) = Err (last_os_error OpProtect ERROR_INVALID_PARAMETER).
Proof. vm_compute. auto 10. Qed.
Print Assumptions C105_converted_windows.
