(** The low-water mark of a [BufReader] is what the program last set it to. *)
From Verif Require Import Base ErrorModel RingModel BufSpec BufModel BufClaims.

(** The operand of the last [set_lowat] among the calls, [m] if there is none. *)
Fixpoint last_mark (m : Z) (os : list brop) : Z :=
  match os with
  | [] => m
  | BLowat n :: os => last_mark n os
  | _ :: os => last_mark m os
  end.

Section Mark.
  Variable t : target.

  Lemma sbind_mark {A B} (m : Z) (x : bufreader * out io_error A) (f : bufreader -> A -> bufreader * out io_error B) :
    br_lowat (fst x) = m -> (forall b a, br_lowat b = m -> br_lowat (fst (f b a)) = m) -> br_lowat (fst (sbind x f)) = m.
  Proof. destruct x as [b [a|e| | |]]; cbn; auto. Qed.
  Lemma on_ring_mark {A} b (x : out io_error A) (f : A -> ring) : br_lowat (fst (on_ring b x (fun a => br_with_ring b (f a)))) = br_lowat b.
  Proof. destruct x; reflexivity. Qed.
  Lemma fill_mark b : br_lowat (fst (br_fill_buf t b)) = br_lowat b.
  Proof.
    unfold br_fill_buf. apply sbind_mark; [reflexivity|]. intros b1 rl H1. apply sbind_mark; [|intros b2 _ H2; exact H2].
    destruct (rl <=? br_lowat b1); [|exact H1]. apply sbind_mark; [exact H1|]. intros b2 w H2.
    destruct (src_read (zlen w) (br_src b2)) as [[s' d] res]. apply sbind_mark.
    - rewrite (on_ring_mark _ _ (fun r => r)). exact H2.
    - intros b3 _ H3. apply sbind_mark; [exact H3|]. intros b4 n H4. rewrite (on_ring_mark _ _ (fun r => r)). exact H4.
  Qed.
  Lemma consume_mark b n : br_lowat (fst (br_consume t b n)) = br_lowat b.
  Proof. exact (on_ring_mark b (ring_consume t (br_ring b) n) (fun r => r)). Qed.
  Lemma read_mark b n : br_lowat (fst (fst (br_read t b n))) = br_lowat b.
  Proof.
    unfold br_read. destruct (sbind _ _) as [b1 r1] eqn:E.
    assert (M1 : br_lowat b1 = br_lowat b).
    { change b1 with (fst (b1, r1)). rewrite <- E. apply sbind_mark; [reflexivity|]. intros b2 a H. exact H. }
    destruct r1 as [[|]|e| | |]; try exact M1.
    - destruct (src_read n (br_src b1)) as [[s' d] res]. exact M1.
    - pose proof (fill_mark b1) as F. destruct (br_fill_buf t b1) as [b2 r2]. cbn [fst] in F. destruct r2 as [avail|e| | |]; try (cbn; congruence).
      pose proof (consume_mark b2 (zlen (ztake n avail))) as C. destruct (br_consume t b2 (zlen (ztake n avail))) as [b3 r3]. cbn [fst] in C.
      destruct r3 as [[]|e| | |]; cbn; congruence.
  Qed.
  Lemma until_mark fuel : forall b c acc, br_lowat (fst (fst (br_until_loop t fuel b c acc))) = br_lowat b.
  Proof.
    induction fuel as [|f IH]; intros b c acc; [reflexivity|]. cbn [br_until_loop].
    pose proof (fill_mark b) as F. destruct (br_fill_buf t b) as [b1 r1]. cbn [fst] in F. destruct r1 as [avail|e| | |]; try exact F.
    - destruct (find_byte c avail) as [k|].
      + pose proof (consume_mark b1 (k + 1)) as C. destruct (br_consume t b1 (k + 1)) as [b2 r2]. cbn in *. congruence.
      + pose proof (consume_mark b1 (zlen avail)) as C. destruct (br_consume t b1 (zlen avail)) as [b2 r2]. cbn [fst] in C.
        destruct r2 as [[]|e| | |]; [|cbn; congruence..]. destruct (zlen avail =? 0); [cbn; congruence|]. rewrite IH. congruence.
    - destruct (io_kind_of e); try exact F. rewrite IH. exact F.
  Qed.
  Lemma exact_mark fuel : forall b n acc, br_lowat (fst (fst (br_exact_loop t fuel b n acc))) = br_lowat b.
  Proof.
    induction fuel as [|f IH]; intros b n acc; cbn [br_exact_loop]; (destruct (n <=? 0); [reflexivity|]); [reflexivity|].
    pose proof (read_mark b n) as F. destruct (br_read t b n) as [[b1 d] r1]. cbn [fst] in F. destruct r1 as [k|e| | |]; try exact F.
    - destruct (k =? 0); [exact F|]. destruct (n <? k); [exact F|]. rewrite IH. exact F.
    - destruct (io_kind_of e); try exact F. rewrite IH. exact F.
  Qed.
  Lemma step_mark b o : br_lowat (fst (fst (br_step t b o))) = last_mark (br_lowat b) [o].
  Proof.
    destruct o as [n| |n|n|c|n]; cbn [br_step last_mark].
    - pose proof (read_mark b n) as F. destruct (br_read t b n) as [[b1 d] r]. exact F.
    - pose proof (fill_mark b) as F. destruct (br_fill_buf t b) as [b1 r]. exact F.
    - pose proof (consume_mark b n) as F. destruct (br_consume t b n) as [b1 r]. exact F.
    - reflexivity.
    - apply until_mark.
    - apply exact_mark.
  Qed.
  Lemma run_mark os : forall b b' d rs, br_run t b os = (b', d, rs) -> br_lowat b' = last_mark (br_lowat b) (firstn (length rs) os).
  Proof.
    induction os as [|o os IH]; intros b b' d rs H; cbn [br_run] in H; [injection H as <- _ <-; reflexivity|].
    pose proof (step_mark b o) as S1. destruct (br_step t b o) as [[b1 d1] r]. cbn [fst] in S1.
    assert (L : forall l, last_mark (br_lowat b) (o :: l) = last_mark (br_lowat b1) l) by (intros l; rewrite S1; destruct o; reflexivity).
    destruct r as [u|e| | |]; try (injection H as <- _ <-; cbn [length firstn]; rewrite L; reflexivity);
      destruct (br_run t b1 os) as [[b2 ds] rs1] eqn:E; injection H as <- _ <-; cbn [length firstn]; rewrite L; exact (IH _ _ _ _ E).
  Qed.
  Lemma mark_claim cap src script os b rs : br_any t cap src script os b rs -> br_get_lowat b = last_mark 0 (firstn (length rs) os).
  Proof. intros (_ & _ & _ & _ & m & d & E). exact (run_mark _ _ _ _ _ E). Qed.
End Mark.
