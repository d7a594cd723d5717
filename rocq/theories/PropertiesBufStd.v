(** Property theorems C96: std's provided methods and [std::io::copy] on
    BufReader and BufWriter.  The suffix [_partial] as in PropertiesBuf.v: the
    bytes carried are bounded by [pos_ok], which on 64-bit targets says fewer
    than 2^64. *)
From Coq Require Import Lia Permutation.
From Verif Require Import Base ErrorModel RingSpec RingModel BufSpec BufModel SeqProofs RingTheorems BufWriterProofs BufClaims
  StdModel StdSpec BufStdModel BufStdSpec BufStdClaims PropertiesRing PropertiesBuf.

(** ** Reading *)
Theorem C96_read_to_end_partial : forall t cap src script os b d rs sizes b' s r,
  good_target t -> br_reached t cap src script os b d rs -> (forall i, 0 < sizes i /\ is_usize t (sizes i)) ->
  br_read_to_end t sizes b = (b', s, r) ->
  exists buffered buffered', br_buffer t b = Ret buffered /\ br_buffer t b' = Ret buffered' /\
    s ++ buffered' ++ rs_src (br_src b') = buffered ++ rs_src (br_src b) /\
    match r with
    | Ret _ => buffered' = [] /\ ran_dry (br_src b) (br_src b')
    | Err e => broke (br_src b) (br_src b') e
    | Panic => blew (br_src b) (br_src b')
    | Blocked => rs_script (br_src b') = []
    | Fault => False
    end /\
    (~ In Blocked rs -> exists os' rs', br_reached t cap src script (os ++ os') b' (d ++ s) (rs ++ rs')).
Proof. intros t cap src script os b d rs sizes b' s r Hg. exact (to_end_claim t Hg cap src script os b d rs sizes b' s r). Qed.

Theorem C96_read_to_string_partial : forall t cap src script os b d rs valid sizes b' s str r',
  good_target t -> br_reached t cap src script os b d rs -> (forall i, 0 < sizes i /\ is_usize t (sizes i)) ->
  br_read_to_string t valid sizes b = (b', s, (str, r')) ->
  exists r buffered buffered', in_string valid s r str r' /\ br_buffer t b = Ret buffered /\ br_buffer t b' = Ret buffered' /\
    s ++ buffered' ++ rs_src (br_src b') = buffered ++ rs_src (br_src b) /\
    match r with
    | Ret _ => buffered' = [] /\ ran_dry (br_src b) (br_src b')
    | Err e => broke (br_src b) (br_src b') e
    | Panic => blew (br_src b) (br_src b')
    | Blocked => rs_script (br_src b') = []
    | Fault => False
    end /\
    (~ In Blocked rs -> exists os' rs', br_reached t cap src script (os ++ os') b' (d ++ s) (rs ++ rs')).
Proof.
  intros t cap src script os b d rs valid sizes b' s str r' Hg H Hs E.
  destruct (to_string_claim t cap src script os b d rs valid sizes b' s str r' H Hs E) as (r & E1 & I).
  destruct (to_end_claim t Hg cap src script os b d rs sizes b' s r H Hs E1) as (bf & bf' & X).
  exists r, bf, bf'. split; [exact I|exact X].
Qed.

(** A reader over a source that interrupts, gives little, and fails at last; it
    has been used before. *)
Definition ex_text : bytes := [65; 13; 10; 66; 13; 67; 10; 10; 68; 69].
Definition ex_std_script : list ranswer :=
  [Give 3; RFail [77;77] (IoSimple Interrupted); Give 2; Give 9; Give 4; Give 1; Give 4; Give 3; Give 3].
Definition ex_ascii (l : bytes) : bool := forallb (fun x => x <? 128) l.
Definition ex_std_reader (src : bytes) (script : list ranswer) : bufreader :=
  fst (fst (br_run (r64 true) (br_new (fresh_source src script) 4 zeros) [BRead 1])).
Lemma ex_std_reached src script k0 : zlen src < 2 ^ 64 -> Forall honest script ->
  hd_error script = Some (Give k0) -> snd (br_run (r64 true) (br_new (fresh_source src script) 4 zeros) [BRead 1]) = [Ret tt] ->
  br_reached (r64 true) 4 src script [BRead 1] (ex_std_reader src script)
    (snd (fst (br_run (r64 true) (br_new (fresh_source src script) 4 zeros) [BRead 1]))) [Ret tt].
Proof.
  intros L Hh _ E. split; [lia|]. split; [vm_compute; reflexivity|]. split; [split; left; exact L|]. split; [exact Hh|].
  split; [repeat constructor; vm_compute; intuition discriminate|]. exists zeros. apply parts3; [reflexivity|exact E].
Qed.
Example C96_to_end_case :
  let b := ex_std_reader ex_text ex_std_script in
  br_reached (r64 true) 4 ex_text ex_std_script [BRead 1] b [65] [Ret tt] /\
  let '(b', s, r) := br_read_to_end (r64 true) (fun i => if Nat.even i then 32 else 5) b in
  (s, r, br_buffer (r64 true) b', rs_src (br_src b')) = ([13; 10; 66; 13; 67; 10; 10; 68; 69], Ret tt, Ret [], []).
Proof.
  cbv zeta. split; [|vm_compute; reflexivity].
  apply (ex_std_reached ex_text ex_std_script 3); [vm_compute; reflexivity|repeat constructor|reflexivity|vm_compute; reflexivity].
Qed.
(** Not UTF-8: nothing is left in the string, though the bytes are gone. *)
Example C96_to_string_case :
  let b := ex_std_reader [1; 2; 200; 4] ex_std_script in
  br_reached (r64 true) 4 [1; 2; 200; 4] ex_std_script [BRead 1] b [1] [Ret tt] /\
  let '(b', s, (str, r)) := br_read_to_string (r64 true) ex_ascii (fun _ => 32) b in
  (s, str, r, br_buffer (r64 true) b') = ([2; 200; 4], [], Err InvalidData, Ret []).
Proof.
  cbv zeta. split; [|vm_compute; reflexivity].
  apply (ex_std_reached [1; 2; 200; 4] ex_std_script 3); [vm_compute; reflexivity|repeat constructor|reflexivity|vm_compute; reflexivity].
Qed.
Print Assumptions C96_read_to_end_partial.
Print Assumptions C96_read_to_string_partial.

(** ** Pieces and lines *)
Theorem C96_read_line_partial : forall t cap src script os b d rs valid b' s str r',
  good_target t -> br_reached t cap src script os b d rs -> br_read_line t valid b = (b', s, (str, r')) ->
  exists r buffered buffered', in_string valid s r str r' /\ br_buffer t b = Ret buffered /\ br_buffer t b' = Ret buffered' /\
    s ++ buffered' ++ rs_src (br_src b') = buffered ++ rs_src (br_src b) /\
    match r with
    | Ret _ => flowed (br_src b) (br_src b') /\
               ((exists l, s = l ++ [10] /\ ~ In 10 l) \/ (~ In 10 s /\ buffered' = [] /\ ran_dry (br_src b) (br_src b')))
    | Err e => ~ In 10 s /\ broke (br_src b) (br_src b') e
    | Panic => ~ In 10 s /\ blew (br_src b) (br_src b')
    | Blocked => ~ In 10 s /\ rs_script (br_src b') = []
    | Fault => False
    end /\
    (~ In Blocked rs -> br_reached t cap src script (os ++ [BUntil 10]) b' (d ++ s) (rs ++ [r])).
Proof.
  intros t cap src script os b d rs valid b' s str r' Hg H E.
  destruct (line_claim t Hg cap src script os b d rs valid b' s str r' H E) as (r & E1 & I & N).
  destruct (until_claim t Hg cap src script os b d rs 10 b' s r H E1) as (bf & bf' & X1 & X2 & X3 & X4).
  exists r, bf, bf'. split; [exact I|]. split; [exact X1|]. split; [exact X2|]. split; [exact X3|]. split; [exact X4|exact N].
Qed.

Theorem C96_split_partial : forall t cap src script os b d rs c b' s ps r,
  good_target t -> br_reached t cap src script os b d rs -> Forall steady (rs_script (br_src b)) ->
  br_split t b c = (b', s, ps, r) ->
  exists buffered buffered', br_buffer t b = Ret buffered /\ br_buffer t b' = Ret buffered' /\
    s ++ buffered' ++ rs_src (br_src b') = buffered ++ rs_src (br_src b) /\
    match r with
    | Ret _ => s = buffered ++ rs_src (br_src b) /\ pieces c s ps /\ ran_dry (br_src b) (br_src b')
    | Err e => (exists s0 lost, s = s0 ++ lost /\ ~ In c lost /\ pieces c s0 ps) /\ broke (br_src b) (br_src b') e
    | Panic => (exists s0 lost, s = s0 ++ lost /\ ~ In c lost /\ pieces c s0 ps) /\ blew (br_src b) (br_src b')
    | Blocked => (exists s0 lost, s = s0 ++ lost /\ ~ In c lost /\ pieces c s0 ps) /\ rs_script (br_src b') = []
    | Fault => False
    end /\
    (~ In Blocked rs -> exists n rs', br_reached t cap src script (os ++ repeat (BUntil c) n) b' (d ++ s) (rs ++ rs')).
Proof. intros t cap src script os b d rs c b' s ps r Hg. exact (split_claim t Hg cap src script os b d rs c b' s ps r). Qed.

Theorem C96_lines_partial : forall t cap src script os b d rs valid b' s ls r,
  good_target t -> br_reached t cap src script os b d rs -> Forall steady (rs_script (br_src b)) ->
  br_lines t valid b = (b', s, ls, r) ->
  exists buffered buffered', br_buffer t b = Ret buffered /\ br_buffer t b' = Ret buffered' /\
    s ++ buffered' ++ rs_src (br_src b') = buffered ++ rs_src (br_src b) /\
    match r with
    | Ret _ => s = buffered ++ rs_src (br_src b) /\ lines_of s ls /\ ran_dry (br_src b) (br_src b')
    | Err e => exists s0 bad, s = s0 ++ bad /\ lines_of s0 ls /\
                 (broke (br_src b) (br_src b') e \/ (valid bad = false /\ io_kind_of e = OtherKind (-2) /\ flowed (br_src b) (br_src b')))
    | Panic => blew (br_src b) (br_src b')
    | Blocked => rs_script (br_src b') = []
    | Fault => False
    end /\
    (~ In Blocked rs -> exists n rs', br_reached t cap src script (os ++ repeat (BUntil 10) n) b' (d ++ s) (rs ++ rs')).
Proof. intros t cap src script os b d rs valid b' s ls r Hg. exact (lines_claim t Hg cap src script os b d rs valid b' s ls r). Qed.

Example C96_line_case :
  let b := ex_std_reader ex_text ex_std_script in
  br_reached (r64 true) 4 ex_text ex_std_script [BRead 1] b [65] [Ret tt] /\
  let '(b1, s1, a1) := br_read_line (r64 true) ex_ascii b in
  let '(b2, s2, a2) := br_read_line (r64 true) ex_ascii b1 in
  (a1, a2, br_buffer (r64 true) b2) = (([13; 10], Ret tt), ([66; 13; 67; 10], Ret tt), Ret [10; 68]).
Proof.
  cbv zeta. split; [|vm_compute; reflexivity].
  apply (ex_std_reached ex_text ex_std_script 3); [vm_compute; reflexivity|repeat constructor|reflexivity|vm_compute; reflexivity].
Qed.
Example C96_split_case :
  let b := ex_std_reader ex_text ex_std_script in
  br_reached (r64 true) 4 ex_text ex_std_script [BRead 1] b [65] [Ret tt] /\ Forall steady (rs_script (br_src b)) /\
  let '(_, _, ps, r) := br_split (r64 true) b 10 in (ps, r) = ([[13]; [66; 13; 67]; []; [68; 69]], Ret tt).
Proof.
  cbv zeta. split; [|split; [repeat constructor|vm_compute; reflexivity]].
  apply (ex_std_reached ex_text ex_std_script 3); [vm_compute; reflexivity|repeat constructor|reflexivity|vm_compute; reflexivity].
Qed.
Example C96_lines_case :
  let b := ex_std_reader ex_text ex_std_script in
  br_reached (r64 true) 4 ex_text ex_std_script [BRead 1] b [65] [Ret tt] /\ Forall steady (rs_script (br_src b)) /\
  let '(_, _, ls, r) := br_lines (r64 true) ex_ascii b in (ls, r) = ([[]; [66; 13; 67]; []; [68; 69]], Ret tt).
Proof.
  cbv zeta. split; [|split; [repeat constructor|vm_compute; reflexivity]].
  apply (ex_std_reached ex_text ex_std_script 3); [vm_compute; reflexivity|repeat constructor|reflexivity|vm_compute; reflexivity].
Qed.
(** An error of the inner reader in the middle of a line: the piece read so far
    is lost to the caller of [split]. *)
Example C96_split_lost :
  let script := [Give 3; Give 2; RFail [] (IoOs 5); Give 9; Give 9] in
  let b := ex_std_reader ex_text script in
  br_reached (r64 true) 4 ex_text script [BRead 1] b [65] [Ret tt] /\ Forall steady (rs_script (br_src b)) /\
  let '(b', s, ps, r) := br_split (r64 true) b 10 in
  (ps, s, r, br_buffer (r64 true) b', rs_src (br_src b')) = ([[13]], [13; 10; 66; 13], Err (IoOs 5), Ret [], [67; 10; 10; 68; 69]).
Proof.
  cbv zeta. split; [|split; [repeat constructor|vm_compute; reflexivity]].
  apply (ex_std_reached ex_text [Give 3; Give 2; RFail [] (IoOs 5); Give 9; Give 9] 3); [vm_compute; reflexivity|repeat constructor|reflexivity|vm_compute; reflexivity].
Qed.
Print Assumptions C96_read_line_partial.
Print Assumptions C96_split_partial.
Print Assumptions C96_lines_partial.

(** ** Writing *)
Theorem C96_write_fmt_partial : forall t cap os0 r0 script os b told rs frags b' s r,
  good_target t -> bw_reached t cap os0 r0 script os b told rs -> ~ In Blocked rs ->
  pos_ok t cap (total_after 0 cap os0 + bwops_weight os + zlen (concat frags)) ->
  bw_write_fmt t b frags [] = (b', s, r) ->
  exists n rs', bw_reached t cap os0 r0 script (os ++ map WWriteAll (firstn n frags)) b' (told ++ s) (rs ++ rs') /\
    (exists lost, concat (firstn n frags) = s ++ lost /\ match r with Ret _ => lost = [] /\ firstn n frags = frags | _ => True end) /\
    match r with
    | Ret _ => True
    | Err e => io_kind_of e <> Interrupted /\ exists pre, ws_script (bw_sink b) = pre ++ ws_script (bw_sink b') /\ refused pre e
    | Panic => last_write_panicked (bw_sink b') = true
    | Blocked => ws_script (bw_sink b') = []
    | Fault => False
    end.
Proof. intros t cap os0 r0 script os b told rs frags b' s r Hg. exact (fmt_claim t Hg cap os0 r0 script os b told rs frags b' s r). Qed.
Example C96_fmt_case :
  let sc := [Take 2; WFail (IoSimple Interrupted); Take 9; Take 9; WFail (IoOs 28); Take 9] in
  let b := bw_from_parts (fresh_sink sc) ex_ring in
  bw_reached (r64 true) 5 [RWrite [1;2]] ex_ring sc [] b [] [] /\
  pos_ok (r64 true) 5 (total_after 0 5 [RWrite [1;2]] + 0 + zlen (concat [[3;4]; [5;6]; [7;8]; [9;10]; [11;12;13;14;15;16]])) /\
  let '(b', s, r) := bw_write_fmt (r64 true) b [[3;4]; [5;6]; [7;8]; [9;10]; [11;12;13;14;15;16]] [] in
  (s, r, accepted (bw_sink b'), bw_buffer (r64 true) b') = ([3;4;5;6;7;8;9;10], Err (IoOs 28), [1;2;3;4;5;6;7;8], Ret [9;10]).
Proof.
  cbv zeta. split; [|split; [split; left; vm_compute; reflexivity|vm_compute; reflexivity]].
  split; [exact ex_ring_reached|]. split; [split; left; vm_compute; reflexivity|]. split; [repeat constructor|reflexivity].
Qed.
Print Assumptions C96_write_fmt_partial.

(** ** Copying *)
Theorem C96_copy_partial : forall t cap src script os b d rs wcap os0 r0 wscript wos w wtold wrs sizes b' w' got tld r,
  good_target t -> br_reached t cap src script os b d rs -> ~ In Blocked rs ->
  bw_reached t wcap os0 r0 wscript wos w wtold wrs -> ~ In Blocked wrs ->
  pos_ok t wcap (total_after 0 wcap os0 + bwops_weight wos + zlen src) -> (forall i, 0 < sizes i /\ is_usize t (sizes i)) ->
  std_copy t sizes b w = (b', w', got, tld, r) ->
  exists ns chunks rs' wrs' buffered buffered' lost,
    br_reached t cap src script (os ++ map BRead ns) b' (d ++ got) (rs ++ rs') /\
    bw_reached t wcap os0 r0 wscript (wos ++ map WWriteAll chunks) w' (wtold ++ tld) (wrs ++ wrs') /\
    br_buffer t b = Ret buffered /\ br_buffer t b' = Ret buffered' /\
    got ++ buffered' ++ rs_src (br_src b') = buffered ++ rs_src (br_src b) /\
    got = concat chunks /\ got = tld ++ lost /\
    match r with
    | Ret _ => lost = [] /\ buffered' = [] /\ ran_dry (br_src b) (br_src b')
    | Err e => (lost = [] /\ broke (br_src b) (br_src b') e) \/
               (io_kind_of e <> Interrupted /\ exists pre, ws_script (bw_sink w) = pre ++ ws_script (bw_sink w') /\ refused pre e)
    | Panic => (lost = [] /\ blew (br_src b) (br_src b')) \/ last_write_panicked (bw_sink w') = true
    | Blocked => rs_script (br_src b') = [] \/ ws_script (bw_sink w') = []
    | Fault => False
    end.
Proof.
  intros t cap src script os b d rs wcap os0 r0 wscript wos w wtold wrs sizes b' w' got tld r Hg.
  exact (copy_claim t Hg cap src script os b d rs wcap os0 r0 wscript wos w wtold wrs sizes b' w' got tld r).
Qed.
Theorem C96_copied_partial : forall t cap src script os b d rs wcap os0 r0 wscript wos w wtold wrs sizes b' w' got tld w'',
  good_target t -> br_reached t cap src script os b d rs -> ~ In Blocked rs -> Forall steady (rs_script (br_src b)) ->
  bw_reached t wcap os0 r0 wscript wos w wtold wrs -> ~ In Blocked wrs ->
  pos_ok t wcap (total_after 0 wcap os0 + bwops_weight wos + zlen src) -> (forall i, 0 < sizes i /\ is_usize t (sizes i)) ->
  std_copy t sizes b w = (b', w', got, tld, Ret tt) -> bw_flush t w' = (w'', Ret tt) ->
  exists buffered pending, br_buffer t b = Ret buffered /\ bw_buffer t w = Ret pending /\
    got = buffered ++ rs_src (br_src b) /\ tld = got /\ bw_buffer t w'' = Ret [] /\ br_buffer t b' = Ret [] /\ rs_src (br_src b') = [] /\
    Permutation (accepted (bw_sink w'')) (accepted (bw_sink w) ++ pending ++ got) /\
    (exists chunks, got = concat chunks /\ (never_fits t w (map WWriteAll chunks) -> accepted (bw_sink w'') = accepted (bw_sink w) ++ pending ++ got)).
Proof.
  intros t cap src script os b d rs wcap os0 r0 wscript wos w wtold wrs sizes b' w' got tld w'' Hg.
  exact (copied_claim t Hg cap src script os b d rs wcap os0 r0 wscript wos w wtold wrs sizes b' w' got tld w'').
Qed.
Example C96_copy_case :
  let sc := [Take 2; WFail (IoSimple Interrupted); Take 9; Take 9; Take 3; Take 9; Take 9; Take 9] in
  let b := ex_std_reader ex_text ex_std_script in
  let w := bw_from_parts (fresh_sink sc) ex_ring in
  br_reached (r64 true) 4 ex_text ex_std_script [BRead 1] b [65] [Ret tt] /\ Forall steady (rs_script (br_src b)) /\
  bw_reached (r64 true) 5 [RWrite [1;2]] ex_ring sc [] w [] [] /\
  pos_ok (r64 true) 5 (total_after 0 5 [RWrite [1;2]] + 0 + zlen ex_text) /\
  let '(b', w', got, tld, r) := std_copy (r64 true) (fun i => if Nat.even i then 3 else 2) b w in
  let '(w'', rf) := bw_flush (r64 true) w' in
  (got, tld, r, rf, accepted (bw_sink w'')) =
  ([13; 10; 66; 13; 67; 10; 10; 68; 69], [13; 10; 66; 13; 67; 10; 10; 68; 69], Ret tt, Ret tt, [1; 2; 13; 10; 66; 13; 67; 10; 10; 68; 69]).
Proof.
  cbv zeta. split; [|split; [repeat constructor|split; [|split; [split; left; vm_compute; reflexivity|vm_compute; reflexivity]]]].
  - apply (ex_std_reached ex_text ex_std_script 3); [vm_compute; reflexivity|repeat constructor|reflexivity|vm_compute; reflexivity].
  - split; [exact ex_ring_reached|]. split; [split; left; vm_compute; reflexivity|]. split; [repeat constructor|reflexivity].
Qed.
(** A writer that refuses: what was read and not written is lost. *)
Example C96_copy_lost :
  let sc := [Take 2; WFail (IoOs 28)] in
  let b := ex_std_reader ex_text ex_std_script in
  let w := bw_from_parts (fresh_sink sc) ex_ring in
  let '(b', w', got, tld, r) := std_copy (r64 true) (fun _ => 2) b w in
  (got, tld, r, accepted (bw_sink w'), bw_buffer (r64 true) w', br_buffer (r64 true) b') =
  ([13; 10; 66; 13], [13; 10], Err (IoOs 28), [1; 2], Ret [13; 10], Ret []).
Proof. vm_compute. reflexivity. Qed.
Print Assumptions C96_copy_partial.
Print Assumptions C96_copied_partial.
