(** The pages no map and no ring of a program answers for any more, though
    they are still mapped. *)
From Verif Require Import Base Spec ErrorModel OsModel MapModel MapSpec ApiModel ApiSpec RingMapModel RingMapSpec ProcModel ProcSpec
  MachModel MachProcModel MachProcSpec.

(** The kernel's next answer is a refusal. *)
Definition says_no (w : world) : Prop := match w_orc w with Grant _ :: _ => False | _ => True end.

(** The pages call [c] from state [p], with answer [x] and final state [p'],
    leaves behind: those of a dropped map of length 0 (C14), those of a map or
    ring whose release the kernel refuses, and those a failed attempt to make
    a ring has mapped by its end. *)
Definition lost (t : target) (c : pcall) (p : proc) (x : presult) (p' : proc) (pg : Z) : Prop :=
  match c with
  | PMap (CDrop k) => exists l, a_live (pc_a p) k = Some l /\ own_page t (l_map l) pg /\ (m_len (l_map l) = 0 \/ says_no (pc_w p))
  | PDrop k => exists h, pc_ring p k = Some h /\ ring_page t h pg /\ says_no (pc_w p)
  | PRing _ _ | PInf _ _ => (exists e, x = ANew (Err e)) /\ w_vm (pc_w p) pg = None /\ w_vm (pc_w p') pg <> None
  | _ => False
  end.

(** Programs with the set of pages left behind so far.  Nothing is assumed
    about the kernel's answers or the lengths of maps. *)
Inductive ledger (t : target) (plat : platform) (w : world) : proc -> (Z -> Prop) -> Prop :=
| lg_start : wf w -> ledger t plat w (fresh w) (fun _ => False)
| lg_step p L c : ledger t plat w p L -> pcall_ok t c ->
    ledger t plat w (snd (pstep t plat c p))
      (fun pg => L pg \/ lost t c p (fst (pstep t plat c p)) (snd (pstep t plat c p)) pg).

Inductive mledger (t : target) (w : world) : mproc -> (Z -> Prop) -> Prop :=
| ml_start ports : wf w -> mledger t w (mfresh w ports) (fun _ => False)
| ml_step s L c : mledger t w s L -> mcall_ok t c ->
    mledger t w (snd (mstep t c s))
      (fun pg => L pg \/ lost t c (mp_p s) (fst (mstep t c s)) (mp_p (snd (mstep t c s))) pg).

(** The set of mapped pages splits into three parts without common pages. *)
Definition accounted (t : target) (w : world) (p : proc) (L : Z -> Prop) : Prop :=
  forall pg,
    (w_vm (pc_w p) pg <> None <-> w_vm w pg <> None \/ holds_page t p pg \/ L pg) /\
    (w_vm w pg <> None -> ~ holds_page t p pg /\ ~ L pg) /\ (holds_page t p pg -> ~ L pg).

(** Every page in the set lies in one range of consecutive pages that is the
    size of the two halves of a ring of at least [hint] bytes. *)
Definition in_one_ring (t : target) (hint : Z) (L : Z -> Prop) : Prop :=
  exists first len, is_ceil (t_alloc t) hint len /\ forall pg, L pg -> first <= pg < first + npages t (2 * len).
