(** The functions of the module [os] on macOS and iOS, with rings: C110. *)
From Coq Require Import Lia.
From Verif Require Import Base ErrorModel SizeModel OsModel OsProofs MapModel MapSpec RingMapModel RingMapSpec MachModel MachSpec PropertiesSize PropertiesMap PropertiesRingMap PropertiesMach
  OsLayerModel OsLayerSpec OsRingModel OsRingSpec MachRingModel MachRingSpec MachRingProofs.

(** After any calls, each page is what the answers of the calls say. *)
Theorem C110_page_table : forall t h s q, good_target t -> wf (mc_w s) -> Forall (mocall_ok t) h ->
  mexplained t q (option_map access_of (w_vm (mc_w s) q)) (fst (morun t h s)) (option_map access_of (w_vm (mc_w (snd (morun t h s))) q)).
Proof. intros t h s q Ht. exact (morun_law t Ht h s q). Qed.
(** A ring of two pages; one page of its second half protected; 6000
    bytes unmapped from the middle of the first page on, as if a ring of 3000
    bytes were there. *)
Example C110_case :
  let h := [MMap 8192; MOs (OProtect 77824 4096 ReadOnly); MUnmap (65536 + 2048) 3000] in
  let s := mach_world [Grant 0; Grant 0] in
  wf (mc_w s) /\ Forall (mocall_ok (t64 true)) h /\
  map snd (fst (morun (t64 true) h s)) = [Ret 65536; Ret 0; Ret 0] /\
  map (fun q => option_map access_of (w_vm (mc_w (snd (morun (t64 true) h s))) q)) [15; 16; 17; 18; 19; 20] =
    [None; None; None; Some ring_access; Some {| ac_w := false; ac_x := false; ac_shared := true; ac_lock := false |}; None].
Proof.
  cbv zeta. split; [apply ex_wf|]. split.
  - repeat constructor; try (vm_compute; congruence). exists 2. reflexivity.
  - split; vm_compute; reflexivity.
Qed.
Print Assumptions C110_page_table.

(** The two halves of a ring show the same bytes after any further calls that
    unmap none of its pages. *)
Theorem C110_mirror : forall t len s pg s1 h i,
  good_target t -> wf (mc_w s) -> mocall_ok t (MMap len) -> mach_map_ring t len s = (Ret pg, s1) ->
  Forall (mocall_ok t) h -> mleft_alone t pg (2 * len) (fst (morun t h s1)) -> 0 <= i < len ->
  exists b, load (E:=error) t (mc_w (snd (morun t h s1))) (pg + i) = Ret b /\
            load (E:=error) t (mc_w (snd (morun t h s1))) (pg + len + i) = Ret b.
Proof. intros t len s pg s1 h i Ht. exact (mmirror_law t Ht len s pg s1 h i). Qed.
Example C110_case2 :
  let s := mach_world [Grant 0] in
  let s1 := snd (mach_map_ring (t64 true) 8192 s) in
  let h := [MOs (OProtect 65536 8192 ReadOnly); MOs (OStore (65536 + 8192 + 5000) 7); MUnmap 131072 0] in
  fst (mach_map_ring (t64 true) 8192 s) = Ret 65536 /\
  mleft_alone (t64 true) 65536 (2 * 8192) (fst (morun (t64 true) h s1)) /\
  load (E:=error) (t64 true) (mc_w (snd (morun (t64 true) h s1))) (65536 + 5000) = Ret 7.
Proof.
  cbv zeta. split; [vm_compute; reflexivity|]. split; [|vm_compute; reflexivity].
  intros ca q I _.
  assert (L : forall l, l = fst (morun (t64 true) [MOs (OProtect 65536 8192 ReadOnly); MOs (OStore (65536 + 8192 + 5000) 7); MUnmap 131072 0]
      (snd (mach_map_ring (t64 true) 8192 (mach_world [Grant 0])))) ->
    forall ca, In ca l -> exists r, ca = (MOs (OProtect 65536 8192 ReadOnly), r) \/ ca = (MOs (OStore (65536 + 8192 + 5000) 7), r) \/ ca = (MUnmap 131072 0, r)).
  { intros l -> x X. destruct x as [c r]. exists r. vm_compute in X. destruct X as [X|[X|[X|[]]]]; injection X as <- <-; auto. }
  destruct (L _ eq_refl ca I) as (r & [->|[->| ->]]); destruct r; reflexivity.
Qed.
Print Assumptions C110_mirror.
