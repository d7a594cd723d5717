(** The functions of the module [os] on POSIX, with rings: C109. *)
From Coq Require Import Lia.
From Verif Require Import Base ErrorModel SizeModel OsModel OsProofs MapModel MapSpec RingMapModel RingMapSpec PropertiesSize PropertiesMap PropertiesRingMap
  OsLayerModel OsLayerSpec OsRingModel OsRingSpec OsRingProofs.

(** After any calls with any arguments, each page is what the answers of the
    calls say. *)
Theorem C109_page_table : forall t plat h w q, good_target t -> wf w -> Forall (rocall_ok t) h ->
  explained t q (option_map access_of (w_vm w q)) (fst (rorun t plat h w)) (option_map access_of (w_vm (snd (rorun t plat h w)) q)).
Proof. intros t plat h w q Ht. exact (rorun_law t Ht plat h w q). Qed.
(** A ring of two pages; one page of its second half protected and locked, half
    of it unmapped as if it were a ring of one page. *)
Example C109_case :
  let h := [RMap epoch 8192; ROs (OProtect 77824 4096 ReadOnly); ROs (OLock 77824 1); RUnmap 65536 4096] in
  let w := ring_world [Grant 0; Grant 0; Grant 0] in
  wf w /\ Forall (rocall_ok (t64 true)) h /\
  map snd (fst (rorun (t64 true) Anonymous h w)) = [Ret 65536; Ret 0; Ret 0; Ret 0] /\
  map (fun q => option_map access_of (w_vm (snd (rorun (t64 true) Anonymous h w)) q)) [15; 16; 17; 18; 19; 20] =
    [None; None; None; Some ring_access; Some {| ac_w := false; ac_x := false; ac_shared := true; ac_lock := true |}; None].
Proof.
  cbv zeta. split; [apply ex_wf|]. split; [repeat constructor; vm_compute; congruence|]. split; vm_compute; reflexivity.
Qed.
Print Assumptions C109_page_table.

(** The two halves of a ring show the same bytes after any further calls that
    unmap none of its pages, whatever is protected, locked, flushed, advised,
    stored and mapped in between. *)
Theorem C109_mirror : forall t plat clock len w pg w1 h i,
  good_target t -> wf w -> is_usize t len -> map_ring t plat clock len w = (Ret pg, w1) ->
  Forall (rocall_ok t) h -> left_alone t pg (2 * len) (fst (rorun t plat h w1)) -> 0 <= i < len ->
  exists b, load (E:=error) t (snd (rorun t plat h w1)) (pg + i) = Ret b /\
            load (E:=error) t (snd (rorun t plat h w1)) (pg + len + i) = Ret b.
Proof. intros t plat clock len w pg w1 h i Ht. exact (mirror_law t Ht plat clock len w pg w1 h i). Qed.
(** A byte stored in the second half while the first is read only; a private
    map unmapped in between. *)
Example C109_case2 :
  let w := ring_world [Grant 0; Grant 131072; Grant 0; Grant 0] in
  let w1 := snd (map_ring (t64 true) Anonymous epoch 8192 w) in
  let h := [ROs (OProtect 65536 8192 ReadOnly); ROs (OMapAnon 4096 ReadWrite); ROs (OStore (65536 + 8192 + 5000) 7); ROs (OUnmap 131072 4096); ROs (OAdvise 65536 16384 AdvWillNotNeed)] in
  fst (map_ring (t64 true) Anonymous epoch 8192 w) = Ret 65536 /\
  left_alone (t64 true) 65536 (2 * 8192) (fst (rorun (t64 true) Anonymous h w1)) /\
  map snd (fst (rorun (t64 true) Anonymous h w1)) = [Ret 0; Ret 131072; Ret 0; Ret 0; Ret 0] /\
  load (E:=error) (t64 true) (snd (rorun (t64 true) Anonymous h w1)) (65536 + 5000) = Ret 7.
Proof.
  cbv zeta. split; [vm_compute; reflexivity|]. split; [|split; vm_compute; reflexivity].
  intros ca q I O.
  assert (L : forall l, l = fst (rorun (t64 true) Anonymous [ROs (OProtect 65536 8192 ReadOnly); ROs (OMapAnon 4096 ReadWrite); ROs (OStore (65536 + 8192 + 5000) 7);
      ROs (OUnmap 131072 4096); ROs (OAdvise 65536 16384 AdvWillNotNeed)] (snd (map_ring (t64 true) Anonymous epoch 8192 (ring_world [Grant 0; Grant 131072; Grant 0; Grant 0])))) ->
    l = [(ROs (OProtect 65536 8192 ReadOnly), Ret 0); (ROs (OMapAnon 4096 ReadWrite), Ret 131072); (ROs (OStore (65536 + 8192 + 5000) 7), Ret 0);
      (ROs (OUnmap 131072 4096), Ret 0); (ROs (OAdvise 65536 16384 AdvWillNotNeed), Ret 0)]) by (intros l ->; vm_compute; reflexivity).
  rewrite (L _ eq_refl) in I. clear L.
  destruct I as [<-|[<-|[<-|[<-|[<-|[]]]]]]; try reflexivity. cbn [unmaps]. unfold overlaps in *. cbn [t64 t_page] in *.
  apply andb_prop in O as [O1 O2]. apply Z.ltb_lt in O1, O2. apply andb_false_iff. left. apply Z.ltb_ge. lia.
Qed.
Print Assumptions C109_mirror.
