(** The accounts of an interleaving: every mapped page and every open
    descriptor has one owner. *)
From Verif Require Import Base ErrorModel OsModel MapModel MapSpec ApiModel ApiSpec RingMapModel RingMapSpec ProcModel ProcSpec ProcLedgerSpec
  ThreadModel ThreadSpec.

(** The pages an event leaves behind: those a call made as one step leaves
    (C85), and those of a ring allocation that failed and is undone while the
    kernel refuses. *)
Definition tlost (t : target) (e : event) (s : tsys) (x : tresult) (s' : tsys) (pg : Z) : Prop :=
  match e with
  | ECall c => exists r, x = TCall r /\ lost t c (ts_p s) r (ts_p s') pg
  | EGo tid => exists pd, ts_pool s tid = Some pd /\ pd_page t pd pg /\ says_no (pc_w (ts_p s)) /\
      match pd with RUndo _ _ _ _ => True | _ => False end
  | _ => False
  end.
(** The descriptor handed to the program. *)
Definition given (x : tresult) (fd : Z) : Prop := match x with TMap (Ret (SFile _ f)) => f = fd | _ => False end.

(** Interleavings from [w], with the pages left behind so far ([L]) and the
    descriptors the program has ([D]): those that were open at the start, and
    those it was handed, until it closes them. *)
Inductive tledger (t : target) (plat : platform) (w : world) : tsys -> (Z -> Prop) -> (Z -> Prop) -> Prop :=
| tl_start : wf w -> tledger t plat w (idle w) (fun _ => False) (fun fd => w_fd w fd <> None)
| tl_step s L D e : tledger t plat w s L D -> ev_ok t s e ->
    tledger t plat w (snd (tstep t plat e s))
      (fun pg => L pg \/ tlost t e s (fst (tstep t plat e s)) (snd (tstep t plat e s)) pg)
      (fun fd => (D fd /\ e <> ECall (PMap (CClose fd))) \/ given (fst (tstep t plat e s)) fd).

(** A call in progress has reserved the page, or opened the descriptor. *)
Definition busy_page (t : target) (s : tsys) (pg : Z) : Prop := exists tid pd, ts_pool s tid = Some pd /\ pd_page t pd pg.
Definition busy_fd (s : tsys) (tid fd : Z) : Prop := exists pd, ts_pool s tid = Some pd /\ pd_owns pd = true /\ pd_fd pd = Some fd.

(** Four parts without common pages: what was mapped at the start, what maps
    and rings hold, what calls in progress have reserved, what is left behind. *)
Definition pages_accounted (t : target) (w : world) (s : tsys) (L : Z -> Prop) : Prop :=
  forall pg,
    (w_vm (pc_w (ts_p s)) pg <> None <-> w_vm w pg <> None \/ holds_page t (ts_p s) pg \/ busy_page t s pg \/ L pg) /\
    (w_vm w pg <> None -> ~ holds_page t (ts_p s) pg /\ ~ busy_page t s pg /\ ~ L pg) /\
    (holds_page t (ts_p s) pg -> ~ busy_page t s pg /\ ~ L pg) /\ (busy_page t s pg -> ~ L pg).
(** Every open descriptor is the program's, or that of exactly one call in
    progress. *)
Definition files_accounted (s : tsys) (D : Z -> Prop) : Prop :=
  forall fd,
    (w_fd (pc_w (ts_p s)) fd <> None <-> D fd \/ exists tid, busy_fd s tid fd) /\
    (forall tid, busy_fd s tid fd -> ~ D fd) /\
    (forall i j, busy_fd s i fd -> busy_fd s j fd -> i = j).
