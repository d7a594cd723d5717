(** The accounts of an interleaving on macOS and iOS: every mapped page, every
    open descriptor and every memory entry has one owner. *)
From Verif Require Import Base ErrorModel OsModel MapModel MapSpec ApiModel ApiSpec RingMapModel RingMapSpec MachModel ProcModel ProcSpec ProcLedgerSpec
  MachProcModel MachProcSpec ThreadModel ThreadSpec ThreadLedgerSpec MachThreadModel MachThreadSpec.

(** The pages an event leaves behind: those a call made as one step leaves
    (C85), and those of a ring allocation that failed and is undone while the
    kernel refuses. *)
Definition mtlost (t : target) (e : event) (s : msys) (x : tresult) (s' : msys) (pg : Z) : Prop :=
  match e with
  | ECall c => exists r, x = TCall r /\ lost t c (ms_p s) r (ms_p s') pg
  | EGo tid => exists pd, ms_ring s tid = Some pd /\ mpd_page t pd pg /\ says_no (pc_w (ms_p s)) /\
      match pd with AUndo _ _ _ => True | _ => False end
  | _ => False
  end.

(** As [tledger] (ThreadLedgerSpec.v): [L] are the pages left behind so far,
    [D] the descriptors the program has. *)
Inductive mtledger (t : target) (w : world) (ports : Z -> option mem_entry) : msys -> (Z -> Prop) -> (Z -> Prop) -> Prop :=
| mtl_start : wf w -> mtledger t w ports (midle w ports) (fun _ => False) (fun fd => w_fd w fd <> None)
| mtl_step s L D e : mtledger t w ports s L D -> mev_ok t s e ->
    mtledger t w ports (snd (mtstep t e s))
      (fun pg => L pg \/ mtlost t e s (fst (mtstep t e s)) (snd (mtstep t e s)) pg)
      (fun fd => (D fd /\ e <> ECall (PMap (CClose fd))) \/ given (fst (mtstep t e s)) fd).

(** A ring being made has reserved the page. *)
Definition mbusy_page (t : target) (s : msys) (pg : Z) : Prop := exists tid pd, ms_ring s tid = Some pd /\ mpd_page t pd pg.

(** Four parts without common pages: what was mapped at the start, what maps
    and rings hold, what calls in progress have reserved, what is left behind. *)
Definition mpages_accounted (t : target) (w : world) (s : msys) (L : Z -> Prop) : Prop :=
  forall pg,
    (w_vm (pc_w (ms_p s)) pg <> None <-> w_vm w pg <> None \/ holds_page t (ms_p s) pg \/ mbusy_page t s pg \/ L pg) /\
    (w_vm w pg <> None -> ~ holds_page t (ms_p s) pg /\ ~ mbusy_page t s pg /\ ~ L pg) /\
    (holds_page t (ms_p s) pg -> ~ mbusy_page t s pg /\ ~ L pg) /\ (mbusy_page t s pg -> ~ L pg).
