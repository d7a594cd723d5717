(** What no map, no ring and no call in progress of a program on Windows
    answers for: views and reservations left behind under any interleaving. *)
From Verif Require Import Base ErrorModel OsModel MapModel MapSpec RingMapModel MemRingModel ProcModel
  WinModel WinSpec WinMapModel WinMapSpec WinProcModel WinProcSpec WinLedgerSpec WinThreadModel WinThreadSpec.

(** The views a call in progress has, by their base addresses: those it made
    and will hand over, and those it has not unmapped yet. *)
Definition wpd_view (t : target) (pd : wpend) (a : Z) : Prop :=
  match pd with
  | VDone _ _ _ _ _ _ d len (Ret ptr) => a = map_base t {| m_ptr := ptr_add t ptr d; m_len := len |}
  | NDone _ _ _ _ off len (Ret ptr) => a = map_base t {| m_ptr := ptr_add t ptr off; m_len := len |}
  | KSecond _ _ _ _ _ _ pg | KUndo _ _ _ _ _ _ pg _ => a = pg
  | KDone _ len _ _ (Ret pg) => a = pg \/ a = pg + len
  | DSecond r _ => a = ra_ptr r \/ a = ra_ptr r + ra_len r
  | DFirst r _ => a = ra_ptr r
  | _ => False
  end.
(** The reservation it has not released yet. *)
Definition wpd_reserved (pd : wpend) (a : Z) : Prop :=
  match pd with KRelease _ _ _ _ _ _ pg => a = pg | _ => False end.
(** Its next system call releases a view (UnmapViewOfFile). *)
Definition wpd_unmaps (pd : wpend) : Prop :=
  match pd with KUndo _ _ _ _ _ _ _ _ | DSecond _ _ | DFirst _ _ => True | _ => False end.

(** Somebody answers for the view at [a]. *)
Definition wholds (t : target) (s : wtsys) (z : wowner) (a : Z) : Prop :=
  match z with
  | WThing k => exists x, g_tab (wp_g (wt_p s)) k = Some x /\ bases_of t x a
  | WThread tid => exists pd, wt_pool s tid = Some pd /\ wpd_view t pd a
  end.
Notation wkern s := (g_s (wp_g (wt_p s))).
(** Nobody does. *)
Definition loose_view (t : target) (s : wtsys) (a : Z) : Prop :=
  n_view (wkern s) a <> None /\ forall z, ~ wholds t s z a.
Definition loose_resv (s0 : win) (s : wtsys) (a : Z) : Prop :=
  n_resv s0 a = None /\ n_resv (wkern s) a <> None /\ forall tid pd, wt_pool s tid = Some pd -> ~ wpd_reserved pd a.

(** Where a view nobody answers for comes from: the program dropped a map of
    length zero, or the kernel refused to unmap a view. *)
Definition cut_loose (t : target) (e : wevent) (s s' : wtsys) (a : Z) : Prop :=
  (exists k x, e = WECall (WAct (ADrop k)) /\ g_tab (wp_g (wt_p s)) k = Some x /\ bases_of t x a /\
     (empty_map x \/ refused_release (wkern s) (wkern s'))) \/
  (exists tid pd, e = WEGo tid /\ wt_pool s tid = Some pd /\ wpd_unmaps pd /\ wpd_view t pd a /\ refused_release (wkern s) (wkern s')).

(** No map of length zero is dropped. *)
Definition drops_no_empty (e : wevent) (s : wtsys) : Prop :=
  match e with WECall (WAct (ADrop k)) => forall x, g_tab (wp_g (wt_p s)) k = Some x -> ~ empty_map x | _ => True end.
(** Interleavings in which the kernel refuses to release nothing and the
    program drops no map of length zero. *)
Inductive wttidy (t : target) (s0 : win) : wtsys -> Prop :=
| wty_start : fresh_start s0 -> wttidy t s0 (widle s0)
| wty_step s e : wttidy t s0 s -> wev_ok t e -> drops_no_empty e s -> ~ refused_release (wkern s) (wkern (snd (wtstep t e s))) ->
    wttidy t s0 (snd (wtstep t e s)).

(** ** Files *)
(** The file a call in progress has opened ([open_if]) and will hand over or
    close. *)
Definition wpd_file (pd : wpend) : option Z :=
  match pd with
  | VStat _ true _ fd | VCut _ true _ fd _ | VSize _ true _ fd _ | VCreate _ true _ fd _
  | VView _ true _ fd _ _ _ _ _ | VDone _ true _ fd _ _ _ _ _ | VClose fd _ => Some fd
  | _ => None
  end.
(** The file handed to the program. *)
Definition wgiven (x : wtresult) (fd : Z) : Prop := match x with WTMap (Ret (GFile _ f)) => f = fd | _ => False end.
(** Interleavings from [s0] with the files the program has ([D]): those open at
    the start, and those it was handed, until it closes them; it closes no
    other. *)
Inductive wfiles (t : target) (s0 : win) : wtsys -> (Z -> Prop) -> Prop :=
| wfl_start : fresh_start s0 -> wfiles t s0 (widle s0) (fun fd => w_fd (n_w s0) fd <> None)
| wfl_step s D e : wfiles t s0 s D -> wev_ok t e -> (forall fd, e = WECall (WAct (AClose fd)) -> D fd) ->
    wfiles t s0 (snd (wtstep t e s))
      (fun fd => (D fd /\ e <> WECall (WAct (AClose fd))) \/ wgiven (fst (wtstep t e s)) fd).
Definition wbusy_file (s : wtsys) (tid fd : Z) : Prop := exists pd, wt_pool s tid = Some pd /\ wpd_file pd = Some fd.
(** Every open file is the program's, or that of exactly one call in progress. *)
Definition wfiles_accounted (s : wtsys) (D : Z -> Prop) : Prop :=
  forall fd,
    (w_fd (n_w (wkern s)) fd <> None <-> D fd \/ exists tid, wbusy_file s tid fd) /\
    (forall tid, wbusy_file s tid fd -> ~ D fd) /\
    (forall i j, wbusy_file s i fd -> wbusy_file s j fd -> i = j).
