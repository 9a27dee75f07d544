(** The statements of the sampler properties, generic in the loop body
    (instantiated for MYULA and SKROCK in P_Samplers.v), and PxMALA's. *)
From Coq Require Import List ZArith Lia Bool String Sorted.
From Verif Require Import PyBase PyBaseFacts Sampler SamplerSpec SamplerFacts MyulaProof LoopProof ScheduleProof SamplerThms PxMalaProof MalaThms SamplerDemo.
Import ListNotations.
Open Scope Z_scope.

Section Gen.
Context {V D K P G I : Type}.
Notation ops := (ops V D K P G I).
Notation inst := (inst V D K P).
Notation world := (world V D K P G).
Notation entry := (entry V D K).
Notation cstate := (cstate V D G).

Variable tr : ops -> P -> cstate -> cstate -> Prop.
Hypothesis GT : good_trans tr.
Variable run : ops -> params -> nat -> I -> @M V D K P G unit.
Variable ev : ops -> params -> inst -> Z -> list entry -> list (event K) -> Prop.
Variable reads : params -> Z -> Prop.
Hypothesis RUN : forall o prm fuel start w w' out n,
  sized (w_inst w) n -> p_nsamples prm = Z.of_nat n ->
  run o prm fuel start w = (w', out) ->
  run_spec o prm (tr o) (ev o prm) (reads prm) fuel start w w' out n.

Lemma gen_schedule o prm fuel start (w w' : world) n :
  sized (w_inst w) n -> p_nsamples prm = Z.of_nat n ->
  run o prm fuel start w = (w', Ret tt) ->
  exists s trj l,
    starts o start (w_rng w) s /\
    path (tr o (i_delta (w_inst w))) s trj /\
    List.length trj = total_iters (p_nburn prm) (p_ngap prm) n /\
    w_rng w' = snd (last trj s) /\
    List.length l = n /\ Forall (entry_ok o) l /\
    records o (w_inst w) (w_inst w') l /\
    (forall j e, nth_error l j = Some e ->
       exists st, nth_error trj (Z.to_nat (save_iter (p_nburn prm) (p_ngap prm) j)) = Some st /\ of_state st e).
Proof.
  intros HS HN H. destruct (RUN _ _ _ _ _ _ _ _ HS HN H) as (_ & (s & t & l & A1 & A2 & A3 & A4 & A5 & A6 & A7 & _) & _).
  exists s, t, l. repeat (split; [assumption|]). split.
  - apply Forall_forall. intros e He. apply In_nth_error in He. destruct He as (j & Hj). apply (A7 _ _ Hj).
  - split; [exact A6|]. intros j e Hj. apply (A7 _ _ Hj).
Qed.

Lemma gen_terminates o prm fuel start (w : world) n :
  total_ops o -> sized (w_inst w) n -> p_nsamples prm = Z.of_nat n ->
  (total_iters (p_nburn prm) (p_ngap prm) n <= fuel)%nat ->
  (forall i, reads prm i -> ~ untracked (w_inst w)) ->
  exists w', run o prm fuel start w = (w', Ret tt).
Proof.
  intros HT HS HN Hf Hr. destruct (run o prm fuel start w) as [w' out] eqn:E.
  pose proof (RUN _ _ _ _ _ _ _ _ HS HN E) as SP.
  pose proof (run_no_raise_cases tr o prm _ _ fuel start w w' out n HT SP Hf) as C.
  destruct out as [[]|e|]; [eauto| |tauto].
  destruct C as (_ & HU & i & _ & Hi). destruct (Hr i Hi HU).
Qed.

Lemma gen_not_before o prm fuel start (w w' : world) out n :
  sized (w_inst w) n -> p_nsamples prm = Z.of_nat n ->
  run o prm fuel start w = (w', out) -> out = Ret tt ->
  (total_iters (p_nburn prm) (p_ngap prm) n <= fuel)%nat.
Proof.
  intros HS HN H ->. destruct (RUN _ _ _ _ _ _ _ _ HS HN H) as (_ & _ & A & _). exact A.
Qed.

Lemma gen_rows_true o prm fuel start (w w' : world) n :
  sized (w_inst w) n -> p_nsamples prm = Z.of_nat n ->
  run o prm fuel start w = (w', Ret tt) ->
  forall j, (j < n)%nat -> exists x, row_true o (w_inst w') j x.
Proof.
  intros HS HN H j Hj. destruct (RUN _ _ _ _ _ _ _ _ HS HN H) as (_ & (s & t & l & A1 & A2 & A3 & A4 & A5 & A6 & A7 & _) & _).
  destruct (nth_error l j) as [[[x d] tt']|] eqn:E; [|apply nth_error_None in E; lia].
  exists x, d, tt'. destruct (saved_true tr GT o prm _ _ _ _ _ _ A2 E (A7 _ _ E)) as (B1 & B2).
  split; [exact B1|]. split; [exact B2|].
  eapply records_torn_row; [apply records_torn_of; exact A6|exact E].
Qed.

Lemma gen_rows_true_stopped o prm fuel start (w w' : world) out n :
  sized (w_inst w) n -> p_nsamples prm = Z.of_nat n ->
  run o prm fuel start w = (w', out) -> out = NoFuel ->
  forall j, save_iter (p_nburn prm) (p_ngap prm) j < Z.of_nat fuel -> exists x, row_true o (w_inst w') j x.
Proof.
  intros HS HN H -> j Hj.
  destruct (RUN _ _ _ _ _ _ _ _ HS HN H) as (_ & (s & t & l & A1 & A2 & A3 & A4 & A5 & A6 & A7) & _).
  pose proof (iter_le_len prm t o l fuel j A3 A5 Hj) as HL.
  destruct (nth_error l j) as [[[x d] tt']|] eqn:E; [|apply nth_error_None in E; lia].
  exists x, d, tt'. destruct (saved_true tr GT o prm _ _ _ _ _ _ A2 E (A7 _ _ E)) as (B1 & B2).
  split; [exact B1|]. split; [exact B2|].
  eapply records_torn_row; [apply records_torn_of; exact A6|exact E].
Qed.

Lemma gen_observation o prm1 prm2 f1 f2 start (w1 w1' w2 w2' : world) n1 n2 j k :
  sized (w_inst w1) n1 -> p_nsamples prm1 = Z.of_nat n1 ->
  sized (w_inst w2) n2 -> p_nsamples prm2 = Z.of_nat n2 ->
  run o prm1 f1 start w1 = (w1', Ret tt) -> run o prm2 f2 start w2 = (w2', Ret tt) ->
  w_rng w1 = w_rng w2 -> i_delta (w_inst w1) = i_delta (w_inst w2) ->
  (j < n1)%nat -> (k < n2)%nat ->
  save_iter (p_nburn prm1) (p_ngap prm1) j = save_iter (p_nburn prm2) (p_ngap prm2) k ->
  rows_agree (w_inst w1') j (w_inst w2') k.
Proof.
  intros HS1 HN1 HS2 HN2 H1 H2 Hg Hd Hj Hk E.
  destruct (RUN _ _ _ _ _ _ _ _ HS1 HN1 H1) as (_ & C1 & _).
  destruct (RUN _ _ _ _ _ _ _ _ HS2 HN2 H2) as (_ & C2 & _).
  exact (complete_rows_agree tr GT (fun p => ev o p) (fun p => ev o p) o prm1 prm2 start w1 w1' w2 w2' n1 n2 j k C1 C2 Hg Hd Hj Hk E).
Qed.

Lemma gen_rerun o prm f1 f2 start (w1 w1' w2 w2' : world) n :
  sized (w_inst w1) n -> sized (w_inst w2) n -> p_nsamples prm = Z.of_nat n ->
  run o prm f1 start w1 = (w1', Ret tt) -> run o prm f2 start w2 = (w2', Ret tt) ->
  w_rng w1 = w_rng w2 -> i_delta (w_inst w1) = i_delta (w_inst w2) ->
  same_tracking (w_inst w1) (w_inst w2) ->
  same_arrays (w_inst w1') (w_inst w2') /\ w_rng w1' = w_rng w2' /\
  sized (w_inst w1') n /\ i_delta (w_inst w1') = i_delta (w_inst w1).
Proof.
  intros HS1 HS2 HN H1 H2 Hg Hd HT.
  destruct (RUN _ _ _ _ _ _ _ _ HS1 HN H1) as (K1 & C1 & _).
  destruct (RUN _ _ _ _ _ _ _ _ HS2 HN H2) as (_ & C2 & _).
  destruct (complete_same_arrays tr GT (fun p => ev o p) (fun p => ev o p) o prm start w1 w1' w2 w2' n HS1 HS2 C1 C2 Hg Hd HT) as (A & B).
  split; [exact A|]. split; [exact B|]. split; [|apply K1].
  destruct C1 as (s & t & l & _ & _ & _ & _ & _ & A6 & _). eapply records_sized; eauto.
Qed.

(** a run stopped after [f1] iterations against the finished run *)
Lemma gen_stopped o prm f1 f2 start (w w1' w2' : world) n :
  sized (w_inst w) n -> p_nsamples prm = Z.of_nat n ->
  run o prm f1 start w = (w1', NoFuel) -> run o prm f2 start w = (w2', Ret tt) ->
  (forall j, save_iter (p_nburn prm) (p_ngap prm) j < Z.of_nat f1 ->
      (j < n)%nat /\ rows_agree (w_inst w1') j (w_inst w2') j) /\
  (forall j, Z.of_nat f1 <= save_iter (p_nburn prm) (p_ngap prm) j ->
      rows_agree (w_inst w1') j (w_inst w) j).
Proof.
  intros HS HN H1 H2.
  destruct (RUN _ _ _ _ _ _ _ _ HS HN H1) as (_ & C1 & _).
  destruct (RUN _ _ _ _ _ _ _ _ HS HN H2) as (_ & C2 & _).
  split.
  - exact (partial_vs_complete tr GT o o (records o) prm (ev o prm) start w w1' w2' f1 n (completes_refl o) (records_torn_of o) C1 C2).
  - exact (stop_untouched tr o prm start w w1' f1 n C1).
Qed.

(** a run in which an operator raised, against the run in which it did not *)
Lemma gen_crashed o1 o2 prm f1 f2 start (w w1' w2' : world) n e :
  completes o1 o2 ->
  sized (w_inst w) n -> p_nsamples prm = Z.of_nat n ->
  run o1 prm f1 start w = (w1', Exn e) -> run o2 prm f2 start w = (w2', Ret tt) ->
  same_arrays (w_inst w1') (w_inst w) \/
  exists k, (k < f1)%nat /\
  (forall j, save_iter (p_nburn prm) (p_ngap prm) j < Z.of_nat k ->
      (j < n)%nat /\ rows_agree (w_inst w1') j (w_inst w2') j) /\
  (forall j, Z.of_nat k < save_iter (p_nburn prm) (p_ngap prm) j ->
      rows_agree (w_inst w1') j (w_inst w) j).
Proof.
  intros C HS HN H1 H2.
  destruct (RUN _ _ _ _ _ _ _ _ HS HN H1) as (_ & C1).
  destruct (RUN _ _ _ _ _ _ _ _ HS HN H2) as (_ & C2 & _).
  destruct C1 as [(ST & _)|[(ST & _)|(k & Hk & C1 & _)]]; [left; exact ST|left; exact ST|right].
  exists k. split; [exact Hk|]. split.
  - apply (partial_vs_complete tr GT o1 o2 (crash_rec o1 prm (Z.of_nat k)) prm (ev o2 prm) start w w1' w2' k n C); auto.
    intros s0 s l. unfold crash_rec. destruct (saves prm (Z.of_nat k)); [auto|apply records_torn_of].
  - exact (crash_untouched tr o1 prm start w w1' k n C1).
Qed.

(** with operators that never raise: the only exception is the missing attribute *)
Lemma gen_exceptions o prm fuel start (w w' : world) out n :
  total_ops o -> sized (w_inst w) n -> p_nsamples prm = Z.of_nat n ->
  (total_iters (p_nburn prm) (p_ngap prm) n <= fuel)%nat ->
  run o prm fuel start w = (w', out) ->
  (out = Exn AttributeError <->
     untracked (w_inst w) /\
     exists i, 0 <= i < Z.of_nat (total_iters (p_nburn prm) (p_ngap prm) n) /\ reads prm i) /\
  (out <> Exn AttributeError -> out = Ret tt).
Proof.
  intros HT HS HN Hf E. pose proof (RUN _ _ _ _ _ _ _ _ HS HN E) as SP.
  pose proof (run_no_raise_cases tr o prm _ _ fuel start w w' out n HT SP Hf) as C.
  destruct out as [[]|e|]; [|destruct C as (-> & C1 & C2)|tauto].
  - split; [|auto]. split; [discriminate|]. intros (HU & i & Hi & Hr). destruct (C i Hi Hr HU).
  - split; [|congruence]. split; auto.
Qed.
End Gen.

Lemma myula_RUN {V D K P G I} (o : ops V D K P G I) prm fuel start w w' out n :
  sized (w_inst w) n -> p_nsamples prm = Z.of_nat n ->
  myula_run o prm fuel start w = (w', out) ->
  run_spec o prm (myula_trans o) (myula_events o prm) (myula_reads prm) fuel start w w' out n.
Proof.
  intros HS HN H.
  assert (E : myula_run o prm fuel start w = gen_run o prm (myula_body o prm) fuel start w).
  { unfold myula_run, gen_run, bind. destruct (initial_sample o start w) as [w1 [[X d]|e|]]; try reflexivity. }
  rewrite E in H.
  exact (gen_run_spec o prm (myula_trans o) (myula_events o prm) _ _ (myula_body_ok o prm) _ _ _ _ _ _ HS HN H).
Qed.

Lemma skrock_RUN {V D K P G I} (o : ops V D K P G I) prm fuel start w w' out n :
  sized (w_inst w) n -> p_nsamples prm = Z.of_nat n ->
  skrock_run o prm fuel start w = (w', out) ->
  run_spec o prm (skrock_trans o) (skrock_events o prm) (skrock_reads prm) fuel start w w' out n.
Proof.
  intros HS HN H.
  assert (E : skrock_run o prm fuel start w = gen_run o prm (skrock_body o prm) fuel start w).
  { unfold skrock_run, gen_run, bind. destruct (initial_sample o start w) as [w1 [[X d]|e|]]; try reflexivity. }
  rewrite E in H.
  exact (gen_run_spec o prm (skrock_trans o) (skrock_events o prm) _ _ (skrock_body_ok o prm) _ _ _ _ _ _ HS HN H).
Qed.

(** ** closed formulas *)
Lemma save_iter_formula b g j : 0 <= b -> 0 < g -> save_iter b g j = b + Z.of_nat j * g.
Proof.
  intros Hb Hg. unfold save_iter, first_save, stride.
  rewrite (proj2 (Z.ltb_ge b 0)) by lia. rewrite (proj2 (Z.eqb_neq g 0)) by lia. rewrite Z.abs_eq by lia. reflexivity.
Qed.
Lemma save_iter_formula0 b j : 0 <= b -> save_iter b 0 j = b + Z.of_nat j.
Proof.
  intros Hb. unfold save_iter, first_save, stride.
  rewrite (proj2 (Z.ltb_ge b 0)) by lia. simpl. lia.
Qed.

(** number of saves in the first k+1 iterations *)
Lemma saved_count prm k :
  0 <= p_nburn prm ->
  List.length (saved_idx prm 0 (S k)) =
    if Z.of_nat k <? p_nburn prm then 0%nat
    else S (Z.to_nat ((Z.of_nat k - p_nburn prm) / stride (p_ngap prm))).
Proof.
  intros Hb. destruct (saved_idx_closed prm (S k)) as (_ & A & B).
  set (m := List.length (saved_idx prm 0 (S k))) in *.
  pose proof (stride_pos (p_ngap prm)) as HP.
  assert (F : forall j, save_iter (p_nburn prm) (p_ngap prm) j = p_nburn prm + Z.of_nat j * stride (p_ngap prm)).
  { intros j. unfold save_iter, first_save. rewrite (proj2 (Z.ltb_ge _ 0)) by lia. reflexivity. }
  rewrite F in A.
  assert (B' : forall j, (j < m)%nat -> p_nburn prm + Z.of_nat j * stride (p_ngap prm) <= Z.of_nat k).
  { intros j Hj. specialize (B j Hj). rewrite F in B. nia. }
  clear B. set (s := stride (p_ngap prm)) in *. set (b := p_nburn prm) in *.
  destruct (Z.of_nat k <? b) eqn:E.
  - apply Z.ltb_lt in E. destruct m as [|m]; [reflexivity|]. specialize (B' 0%nat). lia.
  - apply Z.ltb_ge in E.
    assert (Z.of_nat k < b + Z.of_nat m * s) by nia.
    destruct m as [|m]; [simpl in *; lia|].
    specialize (B' m ltac:(lia)). f_equal.
    rewrite <- (Nat2Z.id m) at 1. f_equal.
    apply Z.div_unique with (r := Z.of_nat k - b - Z.of_nat m * s); lia.
Qed.

Lemma progress_due_iff prm i : progress_due prm i = true <-> line_due (p_verbosity prm) i.
Proof.
  unfold progress_due, line_due. rewrite andb_true_iff, Z.ltb_lt, Z.eqb_eq. split; intros (A & B); split; auto.
  - exists ((i + 1) / p_verbosity prm). pose proof (Z.div_mod (i + 1) (p_verbosity prm)). lia.
  - destruct B as (k & ->). apply Z.mod_mul. lia.
Qed.
Lemma progress_due_false prm i : progress_due prm i = false <-> ~ line_due (p_verbosity prm) i.
Proof. rewrite <- progress_due_iff. destruct (progress_due prm i); split; congruence. Qed.

Section Lines.
Context {V D K P G I : Type}.
Notation ops := (ops V D K P G I).
Notation inst := (inst V D K P).
Notation world := (world V D K P G).
Notation entry := (entry V D K).

Lemma progress_shows (o : ops) s0 s l c ev n :
  records o s0 s l -> sized s0 n -> List.length l = n -> (0 < c)%nat -> (c <= n)%nat ->
  ~ untracked s0 ->
  progress_of o s0 (firstn c l) ev -> shows_row s c ev.
Proof.
  intros HR HS HL Hc Hcn HU (_ & HP).
  assert (exists l0 e, firstn c l = l0 ++ [e] /\ nth_error l (c - 1) = Some e) as (l0 & e & E1 & E2).
  { destruct (nth_error l (c - 1)) as [e|] eqn:E; [|apply nth_error_None in E; lia].
    exists (firstn (c - 1) l), e. split; [|reflexivity].
    replace c with (S (c - 1)) at 1 by lia.
    apply nth_error_split in E. destruct E as (a & b & -> & Hl).
    rewrite <- Hl. replace (S (List.length a)) with (List.length a + 1)%nat by lia.
    rewrite firstn_app_2. rewrite firstn_app, Nat.sub_diag, firstn_all. simpl. rewrite app_nil_r. reflexivity. }
  rewrite (HP _ _ E1). rewrite firstn_length_le by lia.
  destruct e as [[x d] [[lp l2] pr]].
  destruct (records_torn_row o s0 s l (c - 1) x d (lp, l2, pr) (records_torn_of _ _ _ _ HR) E2) as (R1 & R2 & R3 & _).
  assert (HU' : ~ untracked s) by (intros Q; apply HU; apply (records_untracked _ _ _ _ HR); exact Q).
  unfold untracked in HU'.
  destruct (i_logPi s) as [lps|] eqn:Q1; [|tauto]. destruct (i_L2s s) as [l2s|] eqn:Q2; [|tauto].
  destruct (i_priors s) as [prs|] eqn:Q3; [|tauto].
  destruct R1 as (r1 & R1 & X1). destruct R2 as (r2 & R2 & X2). destruct R3 as (r3 & R3 & X3).
  inv X1. inv X2. inv X3. unfold shows_row. rewrite Q1, Q2, Q3.
  exists lps, l2s, prs, (o_rowK o lp), (o_rowK o l2), (o_rowK o pr). auto 10.
Qed.

Lemma saved_by_le prm k n : 0 <= p_nburn prm ->
  (k < total_iters (p_nburn prm) (p_ngap prm) n)%nat -> (saved_by (p_nburn prm) (p_ngap prm) k <= n)%nat.
Proof.
  intros Hb Hk. destruct n as [|m]; [simpl in Hk; lia|]. simpl in Hk.
  unfold saved_by. destruct (Z.of_nat k <? p_nburn prm) eqn:E; [lia|]. apply Z.ltb_ge in E.
  pose proof (stride_pos (p_ngap prm)) as HP. unfold save_iter, first_save in Hk.
  rewrite (proj2 (Z.ltb_ge _ 0)) in Hk by lia.
  assert ((Z.of_nat k - p_nburn prm) / stride (p_ngap prm) <= Z.of_nat m).
  { apply Z.div_le_upper_bound; [exact HP|]. nia. }
  assert (0 <= (Z.of_nat k - p_nburn prm) / stride (p_ngap prm)) by (apply Z.div_pos; lia).
  lia.
Qed.

Lemma myula_lines (o : ops) prm fuel start (w w' : world) n :
  sized (w_inst w) n -> p_nsamples prm = Z.of_nat n -> 0 <= p_nburn prm ->
  myula_run o prm fuel start w = (w', Ret tt) ->
  exists groups,
    i_out (w_inst w') = i_out (w_inst w) ++ List.concat groups ++ [EvDone] /\
    List.length groups = total_iters (p_nburn prm) (p_ngap prm) n /\
    forall k, (k < List.length groups)%nat ->
      if progress_due prm (Z.of_nat k) then
        if Z.of_nat k <? p_nburn prm then nth_error groups k = Some [EvBurning]
        else exists ev, nth_error groups k = Some [ev] /\
                        shows_row (w_inst w') (saved_by (p_nburn prm) (p_ngap prm) k) ev
      else nth_error groups k = Some [].
Proof.
  intros HS HN Hb H.
  destruct (myula_RUN _ _ _ _ _ _ _ _ HS HN H) as (_ & (s & t & l & A1 & A2 & A3 & A4 & A5 & A6 & A7 & gr & G1 & G2 & G3) & _ & HRD).
  exists gr. split; [exact G1|]. split; [exact G2|]. intros k Hk.
  destruct (G3 k Hk) as (ev & E1 & E2). unfold myula_events in E2.
  destruct (progress_due prm (Z.of_nat k)) eqn:EP; [|congruence].
  rewrite (saved_count _ _ Hb) in E2.
  destruct (p_nburn prm <=? Z.of_nat k) eqn:EB.
  - apply Z.leb_le in EB. rewrite (proj2 (Z.ltb_ge _ _)) by lia. rewrite (proj2 (Z.ltb_ge _ _)) in E2 by lia.
    destruct E2 as (e & -> & HPo). exists e. split; [exact E1|].
    assert (HSB : saved_by (p_nburn prm) (p_ngap prm) k = S (Z.to_nat ((Z.of_nat k - p_nburn prm) / stride (p_ngap prm)))).
    { unfold saved_by. rewrite (proj2 (Z.ltb_ge _ _)) by lia. reflexivity. }
    rewrite <- HSB in HPo.
    eapply progress_shows; eauto.
    + rewrite HSB. lia.
    + apply saved_by_le; [exact Hb|]. rewrite <- G2. exact Hk.
    + apply (HRD (Z.of_nat k)); [lia|]. split; assumption.
  - apply Z.leb_gt in EB. rewrite (proj2 (Z.ltb_lt _ _)) by lia. congruence.
Qed.

Lemma skrock_lines (o : ops) prm fuel start (w w' : world) n :
  sized (w_inst w) n -> p_nsamples prm = Z.of_nat n -> 0 <= p_nburn prm ->
  skrock_run o prm fuel start w = (w', Ret tt) ->
  exists groups,
    i_out (w_inst w') = i_out (w_inst w) ++ List.concat groups ++ [EvDone] /\
    List.length groups = total_iters (p_nburn prm) (p_ngap prm) n /\
    forall k, (k < List.length groups)%nat ->
      if progress_due prm (Z.of_nat k) then
        exists ev, nth_error groups k = Some [ev] /\
          if Z.of_nat k <? p_nburn prm
          then exists lps l2s prs lp l2 pr,
               i_logPi (w_inst w) = Some lps /\ i_L2s (w_inst w) = Some l2s /\ i_priors (w_inst w) = Some prs /\
               nth_error lps (n - 1) = Some lp /\ nth_error l2s (n - 1) = Some l2 /\ nth_error prs (n - 1) = Some pr /\
               ev = EvProgress 0 lp l2 pr None
          else shows_row (w_inst w') (saved_by (p_nburn prm) (p_ngap prm) k) ev
      else nth_error groups k = Some [].
Proof.
  intros HS HN Hb H.
  destruct (skrock_RUN _ _ _ _ _ _ _ _ HS HN H) as (_ & (s & t & l & A1 & A2 & A3 & A4 & A5 & A6 & A7 & gr & G1 & G2 & G3) & _ & HRD).
  exists gr. split; [exact G1|]. split; [exact G2|]. intros k Hk.
  destruct (G3 k Hk) as (ev & E1 & E2). unfold skrock_events in E2.
  destruct (progress_due prm (Z.of_nat k)) eqn:EP; [|congruence].
  rewrite (saved_count _ _ Hb) in E2. destruct E2 as (e & -> & HPo). exists e. split; [exact E1|].
  destruct (Z.of_nat k <? p_nburn prm) eqn:EB.
  - simpl in HPo. destruct HPo as (HPo & _). destruct (HPo eq_refl) as (lps & l2s & prs & lp & l2 & pr & B1 & B2 & B3 & B4 & B5 & B6 & B7).
    destruct HS as (z1 & z2 & z3 & _). rewrite B1 in z1. rewrite B2 in z2. rewrite B3 in z3. simpl in z1, z2, z3.
    rewrite z1 in B4. rewrite z2 in B5. rewrite z3 in B6.
    exists lps, l2s, prs, lp, l2, pr. auto 10.
  - assert (HSB : saved_by (p_nburn prm) (p_ngap prm) k = S (Z.to_nat ((Z.of_nat k - p_nburn prm) / stride (p_ngap prm)))).
    { unfold saved_by. rewrite EB. reflexivity. }
    rewrite <- HSB in HPo.
    eapply progress_shows; eauto.
    + rewrite HSB. lia.
    + apply saved_by_le; [exact Hb|]. rewrite <- G2. exact Hk.
    + apply (HRD (Z.of_nat k)); [lia|]. exact EP.
Qed.
End Lines.

(** ** PxMALA *)
Section PxMala.
Context {V D K P G I : Type}.
Notation ops := (ops V D K P G I).
Notation inst := (inst V D K P).
Notation world := (world V D K P G).
Notation entry := (entry V D K).
Notation mh_state := (mh_state V P G).

Lemma mala_ref_ret (o : ops) prm tune fuel start (w w' : world) n :
  sized (w_inst w) n -> p_nsamples prm = Z.of_nat n ->
  pxmala_run o prm tune fuel start w = (w', Ret tt) ->
  exists k, (k <= fuel)%nat /\ mh_reference o prm tune start w w' k n.
Proof.
  intros HS HN H. destruct (pxmala_run_spec _ _ _ _ _ _ _ _ _ HS HN H) as (tr & l & gr & OC & L & F & _).
  destruct OC as (x & g0 & idx & A1 & A2 & A3 & A4 & A5 & A6 & A7 & A8).
  exists (List.length tr). split; [exact F|]. exists x, g0, tr, idx, l. auto 15.
Qed.

Lemma mala_ref_stop (o : ops) prm tune fuel start (w w' : world) n :
  sized (w_inst w) n -> p_nsamples prm = Z.of_nat n ->
  pxmala_run o prm tune fuel start w = (w', NoFuel) ->
  exists m, (m < n)%nat /\ mh_reference o prm tune start w w' fuel m.
Proof.
  intros HS HN H. destruct (pxmala_run_spec _ _ _ _ _ _ _ _ _ HS HN H) as (tr & l & gr & OC & L & F & _).
  destruct OC as (x & g0 & idx & A1 & A2 & A3 & A4 & A5 & A6 & A7 & A8).
  exists (List.length l). split; [exact L|]. exists x, g0, tr, idx, l. auto 15.
Qed.

Lemma mh_path_steps (o : ops) tune : forall tr i s, mh_path o tune i s tr ->
  forall k acc s', nth_error tr k = Some (acc, s') ->
  mh_trans o tune (i + Z.of_nat k) (mh_before s tr k) acc s'.
Proof.
  intros tr i s H. induction H as [i s|i s a s1 l HT HP IH]; intros k acc s' E.
  - destruct k; discriminate.
  - destruct k as [|k]; simpl in E.
    + inv E. rewrite Z.add_0_r. exact HT.
    + specialize (IH k acc s' E). replace (i + Z.of_nat (S k)) with (i + 1 + Z.of_nat k) by lia.
      destruct k as [|k]; [exact IH|]. simpl in IH |- *.
      rewrite (nth_indep l (true, s) (true, s1)); [exact IH|].
      assert (S k < List.length l)%nat by (apply nth_error_Some; congruence). lia.
Qed.

Lemma mala_acceptance (o : ops) prm tune start (w w' : world) k m :
  mh_reference o prm tune start w w' k m ->
  exists x0 g0 tr accs,
    mh_starts o start (w_rng w) x0 g0 /\ List.length tr = k /\
    i_acc (w_inst w') = Some accs /\ List.length accs = k /\
    forall i acc x' d' g', nth_error tr i = Some (acc, (x', d', g')) ->
      exists x d g y g1 u a,
        mh_before (x0, i_delta (w_inst w), g0) tr i = (x, d, g) /\
        mh_proposes o d x g y g1 /\ mh_logalpha o d x y a /\ o_logrand o g1 = (u, g') /\
        nth_error accs i = Some (if o_kltb o u a then 1 else 0) /\
        acc = o_kltb o u a /\
        (o_kltb o u a = true -> x' = y) /\ (o_kltb o u a = false -> x' = x).
Proof.
  intros (x0 & g0 & tr & idx & l & A1 & A2 & A3 & A4 & A5 & A6 & A7 & A8 & _).
  exists x0, g0, tr, (map (fun p => b2z (fst p)) tr).
  split; [exact A1|]. split; [exact A3|]. split; [exact A8|]. split; [rewrite map_length; exact A3|].
  intros i acc x' d' g' E.
  pose proof (mh_path_steps _ _ _ _ _ A2 _ _ _ E) as HT.
  destruct (mh_before (x0, i_delta (w_inst w), g0) tr i) as [[x d] g] eqn:EB.
  destruct HT as (y & g1 & u & a & B1 & B2 & B3 & B4 & B5 & B6).
  exists x, d, g, y, g1, u, a. split; [reflexivity|]. split; [exact B1|]. split; [exact B2|]. split; [exact B3|].
  split. { rewrite (map_nth_error _ _ _ E). simpl. rewrite <- B4. reflexivity. }
  split; [exact B4|]. rewrite <- B4. rewrite B5. split; intros ->; reflexivity.
Qed.

Lemma mala_rows_true (o : ops) prm tune start (w w' : world) k m :
  mh_reference o prm tune start w w' k m ->
  forall j, (j < m)%nat -> exists x, row_true o (w_inst w') j x.
Proof.
  intros (x0 & g0 & tr & idx & l & A1 & A2 & A3 & A4 & A5 & A6 & A7 & _) j Hj.
  destruct (nth_error l j) as [[[x d] t]|] eqn:E; [|apply nth_error_None in E; lia].
  pose proof (Forall2_length _ _ _ A6) as HL.
  destruct (nth_error idx j) as [q|] eqn:Eq; [|apply nth_error_None in Eq; lia].
  destruct (Forall2_nth_error _ _ _ A6 _ _ _ Eq E) as (B1 & B2 & _).
  exists x, d, t. split; [exact B1|]. split; [exact B2|].
  eapply records_torn_row; [apply records_torn_of; exact A7|exact E].
Qed.

(** which iterates are saved and when the loop stops *)
Lemma mala_saved (o : ops) prm tune fuel start (w w' : world) n :
  sized (w_inst w) n -> p_nsamples prm = Z.of_nat n ->
  pxmala_run o prm tune fuel start w = (w', Ret tt) ->
  exists x g0 tr idx l,
    mh_starts o start (w_rng w) x g0 /\
    mh_path o tune 0 (x, i_delta (w_inst w), g0) tr /\
    accepted_on_grid (p_nburn prm) (p_ngap prm) tr idx /\
    Forall2 (mh_entry o tr) idx l /\ List.length l = n /\ records o (w_inst w) (w_inst w') l /\
    List.length tr = match n with O => O | S m => S (nth m idx O) end.
Proof.
  intros HS HN H. destruct (pxmala_run_spec _ _ _ _ _ _ _ _ _ HS HN H) as (tr & l & gr & OC & L & F & M & Z0 & _).
  destruct OC as (x & g0 & idx & A1 & A2 & A3 & A4 & A5 & _).
  exists x, g0, tr, idx, l. repeat (split; [assumption|]).
  pose proof (accepted_unique _ _ _ _ _ A3 (msaved_idx_grid prm tr)). subst idx.
  destruct n as [|m]; [rewrite Z0 by reflexivity; reflexivity|].
  pose proof (Forall2_length _ _ _ A4) as HL.
  destruct tr as [|p tr]. { simpl in HL. rewrite L in HL. discriminate. }
  destruct M as (q & Eq & Hin); [discriminate|].
  destruct A3 as (SS & MEM).
  set (idx := msaved_idx prm 0 (p :: tr)) in *.
  rewrite Eq. f_equal.
  assert (HLm : List.length idx = S m) by lia.
  assert (Hnth : In (nth m idx 0%nat) idx) by (apply nth_In; lia).
  assert (nth m idx 0%nat <= q)%nat.
  { apply MEM in Hnth. destruct Hnth as (_ & s & Hs).
    assert (nth m idx 0 < List.length (p :: tr))%nat by (apply nth_error_Some; congruence). lia. }
  assert (q <= nth m idx 0%nat)%nat; [|lia].
  apply (In_nth _ _ 0%nat) in Hin. destruct Hin as (i & Hi & <-).
  clear -SS Hi HLm. assert (i = m \/ i < m)%nat as [->|C] by lia; [lia|].
  assert (nth i idx 0 < nth m idx 0)%nat; [|lia].
  revert i m Hi HLm C. generalize idx SS. clear.
  induction 1 as [|a l HS IH HF]; intros i m Hi HL C; simpl in *; [lia|].
  destruct m as [|m]; [lia|]. destruct i as [|i].
  - rewrite Forall_forall in HF. apply HF. apply nth_In. lia.
  - apply IH; lia.
Qed.

Lemma mala_prefix (o : ops) prm1 prm2 tune f1 f2 start (w1 w1' w2 w2' : world) n1 n2 j :
  sized (w_inst w1) n1 -> p_nsamples prm1 = Z.of_nat n1 ->
  sized (w_inst w2) n2 -> p_nsamples prm2 = Z.of_nat n2 ->
  p_nburn prm1 = p_nburn prm2 -> p_ngap prm1 = p_ngap prm2 ->
  pxmala_run o prm1 tune f1 start w1 = (w1', Ret tt) -> pxmala_run o prm2 tune f2 start w2 = (w2', Ret tt) ->
  w_rng w1 = w_rng w2 -> i_delta (w_inst w1) = i_delta (w_inst w2) ->
  (j < n1)%nat -> (j < n2)%nat ->
  rows_agree (w_inst w1') j (w_inst w2') j.
Proof.
  intros HS1 HN1 HS2 HN2 Hb Hg H1 H2 Hr Hd J1 J2.
  destruct (pxmala_run_spec _ _ _ _ _ _ _ _ _ HS1 HN1 H1) as (tr1 & l1 & gr1 & OC1 & L1 & _).
  destruct (pxmala_run_spec _ _ _ _ _ _ _ _ _ HS2 HN2 H2) as (tr2 & l2 & gr2 & OC2 & L2 & _).
  apply (mala_rows_agree o prm1 prm2 tune start w1 w1' w2 w2' tr1 tr2 l1 l2 j OC1 OC2 Hr Hd Hb Hg); lia.
Qed.

Lemma mala_rerun (o : ops) prm tune f1 f2 start (w1 w1' w2 w2' : world) n :
  sized (w_inst w1) n -> sized (w_inst w2) n -> p_nsamples prm = Z.of_nat n ->
  pxmala_run o prm tune f1 start w1 = (w1', Ret tt) -> pxmala_run o prm tune f2 start w2 = (w2', Ret tt) ->
  w_rng w1 = w_rng w2 -> i_delta (w_inst w1) = i_delta (w_inst w2) ->
  same_tracking (w_inst w1) (w_inst w2) ->
  same_arrays (w_inst w1') (w_inst w2') /\ w_rng w1' = w_rng w2' /\
  i_acc (w_inst w1') = i_acc (w_inst w2') /\ i_deltas (w_inst w1') = i_deltas (w_inst w2') /\
  sized (w_inst w1') n.
Proof.
  intros HS1 HS2 HN H1 H2 Hr Hd HT.
  destruct (pxmala_run_spec _ _ _ _ _ _ _ _ _ HS1 HN H1) as (tr1 & l1 & gr1 & OC1 & L1 & _ & M1 & _).
  destruct (pxmala_run_spec _ _ _ _ _ _ _ _ _ HS2 HN H2) as (tr2 & l2 & gr2 & OC2 & L2 & _ & M2 & _).
  destruct (mala_same_arrays o prm tune start w1 w1' w2 w2' tr1 tr2 l1 l2 n HS1 HS2 OC1 OC2 L1 L2 M1 M2 Hr Hd HT)
    as (A & B & C & E & F).
  repeat (split; [assumption|]). destruct OC1 as (x & g0 & idx & _ & _ & _ & _ & R & _). eapply records_sized; eauto.
Qed.

(** without tuning the step size never changes *)
Lemma mala_untuned_delta (o : ops) prm start (w w' : world) k m :
  mh_reference o prm false start w w' k m ->
  i_delta (w_inst w') = i_delta (w_inst w) /\ i_deltas (w_inst w') = Some [i_delta (w_inst w)].
Proof.
  intros (x0 & g0 & tr & idx & l & A1 & A2 & A3 & A4 & A5 & A6 & A7 & A8 & A9 & xl & A10).
  split; [|exact A9].
  assert (Q : forall i s tr, mh_path o false i s tr -> snd (fst (snd (last tr (true, s)))) = snd (fst s)).
  { clear. intros i s tr H. induction H as [i s|i s a s1 l HT HP IH]; [reflexivity|].
    rewrite last_cons. destruct l as [|p l].
    - simpl. destruct s as [[x d] g], s1 as [[x1 d1] g1].
      destruct HT as (y & h & u & la & _ & _ & _ & _ & _ & ->). reflexivity.
    - rewrite last_cons in IH |- *. rewrite IH.
      destruct s as [[x d] g], s1 as [[x1 d1] g1].
      destruct HT as (y & h & u & la & _ & _ & _ & _ & _ & ->). reflexivity. }
  specialize (Q _ _ _ A2). etransitivity; [|exact Q]. symmetry. exact (f_equal (fun s : mh_state => snd (fst s)) A10).
Qed.

Lemma mala_stopped (o : ops) prm tune f1 f2 start (w w1' w2' : world) n :
  sized (w_inst w) n -> p_nsamples prm = Z.of_nat n ->
  pxmala_run o prm tune f1 start w = (w1', NoFuel) -> pxmala_run o prm tune f2 start w = (w2', Ret tt) ->
  exists m, (m < n)%nat /\
  (forall j, (j < m)%nat -> rows_agree (w_inst w1') j (w_inst w2') j) /\
  (forall j, (m <= j)%nat -> rows_agree (w_inst w1') j (w_inst w) j) /\
  (exists accs1 accs2, i_acc (w_inst w1') = Some accs1 /\ i_acc (w_inst w2') = Some accs2 /\
     List.length accs1 = f1 /\ accs1 = firstn f1 accs2).
Proof.
  intros HS HN H1 H2.
  destruct (pxmala_run_spec _ _ _ _ _ _ _ _ _ HS HN H1) as (tr1 & l1 & gr1 & OC1 & L1 & F1 & _).
  destruct (pxmala_run_spec _ _ _ _ _ _ _ _ _ HS HN H2) as (tr2 & l2 & gr2 & OC2 & L2 & _).
  exists (List.length l1). split; [exact L1|].
  split. { intros j Hj. apply (mala_rows_agree o prm prm tune start w w1' w w2' tr1 tr2 l1 l2 j OC1 OC2); auto; lia. }
  destruct OC1 as (x & g0 & idx & A1 & A2 & A3 & A4 & A5 & A6 & _).
  destruct OC2 as (x' & g0' & idx' & B1 & B2 & B3 & B4 & B5 & B6 & _).
  split. { intros j Hj. eapply rec_untouched; eauto. }
  exists (acc_trace tr1), (acc_trace tr2). split; [exact A6|]. split; [exact B6|].
  split; [unfold acc_trace; rewrite map_length; exact F1|].
  destruct (mh_starts_det _ _ _ _ _ _ _ A1 B1) as (<- & <-).
  destruct (le_lt_dec (List.length tr1) (List.length tr2)) as [LE|LE].
  - destruct (mh_path_prefix _ _ _ _ _ _ A2 B2 LE) as (r & ->).
    unfold acc_trace. rewrite map_app, firstn_app, map_length, F1, Nat.sub_diag.
    rewrite <- F1, <- (map_length (fun p => b2z (fst p)) tr1), firstn_all. simpl. rewrite app_nil_r. reflexivity.
  - exfalso. destruct (mh_path_prefix _ _ _ _ _ _ B2 A2 ltac:(lia)) as (r & ->).
    pose proof (accepted_unique _ _ _ _ _ A3 (msaved_idx_grid prm _)). subst idx.
    pose proof (accepted_unique _ _ _ _ _ B3 (msaved_idx_grid prm _)). subst idx'.
    rewrite msaved_idx_app in A4. apply Forall2_length in A4. apply Forall2_length in B4.
    rewrite app_length in A4. lia.
Qed.

Lemma mala_crashed (o1 o2 : ops) prm tune f1 f2 start (w w1' w2' : world) n e :
  completes o1 o2 ->
  sized (w_inst w) n -> p_nsamples prm = Z.of_nat n ->
  pxmala_run o1 prm tune f1 start w = (w1', Exn e) -> pxmala_run o2 prm tune f2 start w = (w2', Ret tt) ->
  same_arrays (w_inst w1') (w_inst w) \/
  exists m, (m < n)%nat /\
  (forall j, (j < m)%nat -> rows_agree (w_inst w1') j (w_inst w2') j) /\
  (forall j, (m < j)%nat -> rows_agree (w_inst w1') j (w_inst w) j).
Proof.
  intros C HS HN H1 H2.
  destruct (pxmala_run_spec _ _ _ _ _ _ _ _ _ HS HN H1) as (_ & [ST|(x & g0 & tr & idx & l & A1 & A2 & A3 & A4 & A5 & A6 & A7)]).
  { left. exact ST. }
  right. destruct (pxmala_run_spec _ _ _ _ _ _ _ _ _ HS HN H2) as (tr2 & l2 & gr2 & OC2 & L2 & _).
  destruct OC2 as (x' & g0' & idx' & B1 & B2 & B3 & B4 & B5 & B6 & _).
  pose proof (mh_starts_mono _ _ _ _ _ _ C A1) as A1'.
  destruct (mh_starts_det _ _ _ _ _ _ _ A1' B1) as (<- & <-).
  assert (A7' : records_torn o1 (w_inst w) (w_inst w1') l).
  { unfold crash_rec in A7. destruct (saves prm _); [exact A7|apply records_torn_of; exact A7]. }
  exists (List.length l). split; [exact A4|]. split.
  - intros j Hj.
    apply (mala_compare o1 o2 _ _ tune _ tr tr2 idx idx' l l2 (w_inst w) _ (w_inst w) _ j C A2 B2 A5 B3 A6 B4 A7' (records_torn_of _ _ _ _ B5)); lia.
  - intros j Hj. eapply torn_untouched; eauto.
Qed.

Lemma mala_no_exception (o : ops) prm tune fuel start (w w' : world) out n e :
  total_ops o -> sized (w_inst w) n -> p_nsamples prm = Z.of_nat n ->
  pxmala_run o prm tune fuel start w = (w', out) -> out <> Exn e.
Proof.
  intros HT HS HN H ->. destruct (pxmala_run_spec _ _ _ _ _ _ _ _ _ HS HN H) as (R & _).
  exact (total_no_raise _ _ HT R).
Qed.

Lemma mala_lines_thm (o : ops) prm tune fuel start (w w' : world) n :
  sized (w_inst w) n -> p_nsamples prm = Z.of_nat n ->
  pxmala_run o prm tune fuel start w = (w', Ret tt) ->
  exists x g0 tr groups,
    mh_starts o start (w_rng w) x g0 /\ mh_path o tune 0 (x, i_delta (w_inst w), g0) tr /\
    i_out (w_inst w') = i_out (w_inst w) ++ List.concat groups ++ [EvDone] /\
    List.length groups = List.length tr /\
    forall k, (k < List.length tr)%nat ->
      if progress_due prm (Z.of_nat k) then
        exists acc y delta g d lp l2 pr idx,
          nth_error tr k = Some (acc, (y, delta, g)) /\
          o_forward o y = Ok d /\ o_logpi o y d = Ok (lp, l2, pr) /\
          accepted_on_grid (p_nburn prm) (p_ngap prm) (firstn (S k) tr) idx /\
          nth_error groups k = Some [EvProgress (Z.of_nat (List.length idx)) lp l2 pr
                                       (Some (map (fun p => b2z (fst p)) (firstn (S k) tr)))]
      else nth_error groups k = Some [].
Proof.
  intros HS HN H. destruct (pxmala_run_spec _ _ _ _ _ _ _ _ _ HS HN H) as (tr & l & gr & OC & L & F & _ & _ & (G1 & G2) & HO).
  destruct OC as (x & g0 & idx & A1 & A2 & _).
  exists x, g0, tr, gr. repeat (split; [assumption|]). intros k Hk. specialize (G2 k Hk).
  destruct (progress_due prm (Z.of_nat k)); [|exact G2].
  destruct G2 as (acc & y & delta & g & d & lp & l2 & pr & E1 & E2 & E3 & E4).
  exists acc, y, delta, g, d, lp, l2, pr, (msaved_idx prm 0 (firstn (S k) tr)).
  repeat (split; [first [assumption|apply msaved_idx_grid]|]). exact E4.
Qed.
End PxMala.

(** ** final forms with [line_due] *)
Section Final.
Context {V D K P G I : Type}.
Notation ops := (ops V D K P G I).
Notation world := (world V D K P G).

Ltac due k := destruct (progress_due _ (Z.of_nat k)) eqn:EPD;
  [apply progress_due_iff in EPD | apply progress_due_false in EPD].

Lemma myula_lines_final (o : ops) prm fuel start (w w' : world) n :
  sized (w_inst w) n -> p_nsamples prm = Z.of_nat n -> 0 <= p_nburn prm ->
  myula_run o prm fuel start w = (w', Ret tt) ->
  exists groups,
    i_out (w_inst w') = i_out (w_inst w) ++ List.concat groups ++ [EvDone] /\
    List.length groups = total_iters (p_nburn prm) (p_ngap prm) n /\
    forall k ev, nth_error groups k = Some ev ->
      (~ line_due (p_verbosity prm) (Z.of_nat k) -> ev = []) /\
      (line_due (p_verbosity prm) (Z.of_nat k) -> Z.of_nat k < p_nburn prm -> ev = [EvBurning]) /\
      (line_due (p_verbosity prm) (Z.of_nat k) -> p_nburn prm <= Z.of_nat k ->
         exists e, ev = [e] /\ shows_row (w_inst w') (saved_by (p_nburn prm) (p_ngap prm) k) e).
Proof.
  intros A B C H. destruct (myula_lines o prm fuel start w w' n A B C H) as (gr & G1 & G2 & G3).
  exists gr. split; [exact G1|]. split; [exact G2|]. intros k ev E.
  assert (Hk : (k < List.length gr)%nat) by (apply nth_error_Some; congruence).
  specialize (G3 k Hk). due k.
  - split; [tauto|]. destruct (Z.ltb_spec (Z.of_nat k) (p_nburn prm)).
    + split; [intros; congruence|lia].
    + split; [lia|]. destruct G3 as (e & E1 & E2). intros _ _. exists e. split; [congruence|exact E2].
  - split; [intros; congruence|]. tauto.
Qed.

Lemma skrock_lines_final (o : ops) prm fuel start (w w' : world) n :
  sized (w_inst w) n -> p_nsamples prm = Z.of_nat n -> 0 <= p_nburn prm ->
  skrock_run o prm fuel start w = (w', Ret tt) ->
  exists groups,
    i_out (w_inst w') = i_out (w_inst w) ++ List.concat groups ++ [EvDone] /\
    List.length groups = total_iters (p_nburn prm) (p_ngap prm) n /\
    forall k ev, nth_error groups k = Some ev ->
      (~ line_due (p_verbosity prm) (Z.of_nat k) -> ev = []) /\
      (line_due (p_verbosity prm) (Z.of_nat k) -> Z.of_nat k < p_nburn prm ->
         exists lps l2s prs lp l2 pr,
           i_logPi (w_inst w) = Some lps /\ i_L2s (w_inst w) = Some l2s /\ i_priors (w_inst w) = Some prs /\
           nth_error lps (n - 1) = Some lp /\ nth_error l2s (n - 1) = Some l2 /\ nth_error prs (n - 1) = Some pr /\
           ev = [EvProgress 0 lp l2 pr None]) /\
      (line_due (p_verbosity prm) (Z.of_nat k) -> p_nburn prm <= Z.of_nat k ->
         exists e, ev = [e] /\ shows_row (w_inst w') (saved_by (p_nburn prm) (p_ngap prm) k) e).
Proof.
  intros A B C H. destruct (skrock_lines o prm fuel start w w' n A B C H) as (gr & G1 & G2 & G3).
  exists gr. split; [exact G1|]. split; [exact G2|]. intros k ev E.
  assert (Hk : (k < List.length gr)%nat) by (apply nth_error_Some; congruence).
  specialize (G3 k Hk). due k.
  - split; [tauto|]. destruct G3 as (e & E1 & G3). destruct (Z.ltb_spec (Z.of_nat k) (p_nburn prm)).
    + split; [|lia]. intros _ _. destruct G3 as (lps & l2s & prs & lp & l2 & pr & B1 & B2 & B3 & B4 & B5 & B6 & ->).
      exists lps, l2s, prs, lp, l2, pr. repeat (split; [assumption|]). congruence.
    + split; [lia|]. intros _ _. exists e. split; [congruence|exact G3].
  - split; [intros; congruence|]. tauto.
Qed.

Lemma mala_lines_final (o : ops) prm tune fuel start (w w' : world) n :
  sized (w_inst w) n -> p_nsamples prm = Z.of_nat n ->
  pxmala_run o prm tune fuel start w = (w', Ret tt) ->
  exists x g0 tr groups,
    mh_starts o start (w_rng w) x g0 /\ mh_path o tune 0 (x, i_delta (w_inst w), g0) tr /\
    i_out (w_inst w') = i_out (w_inst w) ++ List.concat groups ++ [EvDone] /\
    List.length groups = List.length tr /\
    forall k ev, nth_error groups k = Some ev ->
      (~ line_due (p_verbosity prm) (Z.of_nat k) -> ev = []) /\
      (line_due (p_verbosity prm) (Z.of_nat k) ->
        exists acc y delta g d lp l2 pr idx,
          nth_error tr k = Some (acc, (y, delta, g)) /\
          o_forward o y = Ok d /\ o_logpi o y d = Ok (lp, l2, pr) /\
          accepted_on_grid (p_nburn prm) (p_ngap prm) (firstn (S k) tr) idx /\
          ev = [EvProgress (Z.of_nat (List.length idx)) lp l2 pr
                                       (Some (map (fun p => b2z (fst p)) (firstn (S k) tr)))]).
Proof.
  intros A B H. destruct (mala_lines_thm o prm tune fuel start w w' n A B H) as (x & g0 & tr & gr & G0 & G1 & G2 & G3 & G4).
  exists x, g0, tr, gr. repeat (split; [assumption|]). intros k ev E.
  assert (Hk : (k < List.length tr)%nat) by (rewrite <- G3; apply nth_error_Some; congruence).
  specialize (G4 k Hk). due k.
  - split; [tauto|]. intros _. destruct G4 as (acc & y & delta & g & d & lp & l2 & pr & idx & B1 & B2 & B3 & B4 & B5).
    exists acc, y, delta, g, d, lp, l2, pr, idx. repeat (split; [assumption|]). congruence.
  - split; [intros; congruence|]. tauto.
Qed.

Lemma myula_exceptions (o : ops) prm fuel start (w w' : world) out n :
  total_ops o -> sized (w_inst w) n -> p_nsamples prm = Z.of_nat n ->
  (total_iters (p_nburn prm) (p_ngap prm) n <= fuel)%nat ->
  myula_run o prm fuel start w = (w', out) ->
  (out = Exn AttributeError <->
     line_array_missing (w_inst w) /\
     exists i, p_nburn prm <= i /\ 0 <= i < Z.of_nat (total_iters (p_nburn prm) (p_ngap prm) n) /\
               line_due (p_verbosity prm) i) /\
  (out <> Exn AttributeError -> out = Ret tt).
Proof.
  intros A B C E H.
  destruct (gen_exceptions myula_trans (myula_run) (fun o prm => myula_events o prm) (fun prm => myula_reads prm)
              (fun o prm => myula_RUN o prm) o prm fuel start w w' out n A B C E H) as (Q1 & Q2).
  split; [|exact Q2]. rewrite Q1. unfold myula_reads. split.
  - intros (U & i & I1 & I2 & I3). split; [exact U|]. exists i. rewrite <- progress_due_iff. auto.
  - intros (U & i & I1 & I2 & I3). split; [exact U|]. exists i. rewrite progress_due_iff. auto.
Qed.

Lemma skrock_exceptions (o : ops) prm fuel start (w w' : world) out n :
  total_ops o -> sized (w_inst w) n -> p_nsamples prm = Z.of_nat n ->
  (total_iters (p_nburn prm) (p_ngap prm) n <= fuel)%nat ->
  skrock_run o prm fuel start w = (w', out) ->
  (out = Exn AttributeError <->
     line_array_missing (w_inst w) /\
     exists i, 0 <= i < Z.of_nat (total_iters (p_nburn prm) (p_ngap prm) n) /\
               line_due (p_verbosity prm) i) /\
  (out <> Exn AttributeError -> out = Ret tt).
Proof.
  intros A B C E H.
  destruct (gen_exceptions skrock_trans (skrock_run) (fun o prm => skrock_events o prm) (fun prm => skrock_reads prm)
              (fun o prm => skrock_RUN o prm) o prm fuel start w w' out n A B C E H) as (Q1 & Q2).
  split; [|exact Q2]. rewrite Q1. unfold skrock_reads. split.
  - intros (U & i & I1 & I2). split; [exact U|]. exists i. rewrite <- progress_due_iff. auto.
  - intros (U & i & I1 & I2). split; [exact U|]. exists i. rewrite progress_due_iff. auto.
Qed.

(** an invalid start point is reported before anything is recorded *)
Lemma start_rejected (o : ops) prm fuel start (w : world) e g' :
  o_init o start (w_rng w) = (Raise e, g') ->
  (exists w', myula_run o prm fuel start w = (w', Exn e) /\ w_inst w' = w_inst w /\ w_rng w' = g') /\
  (exists w', skrock_run o prm fuel start w = (w', Exn e) /\ w_inst w' = w_inst w /\ w_rng w' = g') /\
  (forall tune, exists w', pxmala_run o prm tune fuel start w = (w', Exn e) /\
     same_arrays (w_inst w') (w_inst w) /\ i_delta (w_inst w') = i_delta (w_inst w) /\
     i_out (w_inst w') = i_out (w_inst w) /\ w_rng w' = g').
Proof.
  intros H. unfold myula_run, skrock_run, pxmala_run, initial_sample, with_rng, bind, get_inst, put_inst. simpl. rewrite H. simpl.
  split; [eexists; repeat split|]. split; [eexists; repeat split|]. intros tune. eexists; repeat split.
Qed.
End Final.

(** ** Termination of PxMALA and independence of the fuel *)
Section Fuel.
Context {V D K P G I : Type}.
Notation ops := (ops V D K P G I).
Notation world := (world V D K P G).

Lemma gen_loop_fuel prm body : forall f1 f2 i j X d (w w' : world),
  (f1 <= f2)%nat ->
  gen_loop (V:=V) (D:=D) (K:=K) (P:=P) (G:=G) prm body f1 i j X d w = (w', Ret tt) ->
  gen_loop prm body f2 i j X d w = (w', Ret tt).
Proof.
  induction f1 as [|f1 IH]; intros f2 i j X d w w' Hle H.
  - simpl in H. destruct f2; simpl; destruct (j <? p_nsamples prm); try exact H; discriminate.
  - destruct f2 as [|f2]; [lia|]. simpl in H |- *. destruct (j <? p_nsamples prm); [|exact H].
    unfold bind in *. destruct (body i j X d w) as [w1 [[[j' X'] d']|e|]]; try discriminate.
    apply IH; [lia|exact H].
Qed.

Lemma myula_fuel (o : ops) prm f1 f2 start (w w' : world) :
  (f1 <= f2)%nat -> myula_run o prm f1 start w = (w', Ret tt) -> myula_run o prm f2 start w = (w', Ret tt).
Proof.
  intros Hle. unfold myula_run, bind. destruct (initial_sample o start w) as [w1 [[X d]|e|]]; try discriminate.
  rewrite !myula_loop_gen. apply gen_loop_fuel. exact Hle.
Qed.
Lemma skrock_fuel (o : ops) prm f1 f2 start (w w' : world) :
  (f1 <= f2)%nat -> skrock_run o prm f1 start w = (w', Ret tt) -> skrock_run o prm f2 start w = (w', Ret tt).
Proof.
  intros Hle. unfold skrock_run, bind. destruct (initial_sample o start w) as [w1 [[X d]|e|]]; try discriminate.
  rewrite !skrock_loop_gen. apply gen_loop_fuel. exact Hle.
Qed.

Lemma pxmala_loop_fuel (o : ops) prm tune : forall f1 f2 i j c (w w' : world),
  (f1 <= f2)%nat ->
  pxmala_loop o prm tune f1 i j c w = (w', Ret tt) -> pxmala_loop o prm tune f2 i j c w = (w', Ret tt).
Proof.
  induction f1 as [|f1 IH]; intros f2 i j c w w' Hle H.
  - simpl in H. destruct f2; simpl; destruct (j <? p_nsamples prm); try exact H; discriminate.
  - destruct f2 as [|f2]; [lia|]. cbn [pxmala_loop] in H |- *. destruct (j <? p_nsamples prm); [|exact H].
    unfold bind at 1 in H. unfold bind at 1. destruct (pxmala_body o prm tune i j c w) as [w1 [[j' c']|e|]]; try discriminate.
    apply IH; [lia|exact H].
Qed.

Lemma pxmala_fuel (o : ops) prm tune f1 f2 start (w w' : world) :
  (f1 <= f2)%nat -> pxmala_run o prm tune f1 start w = (w', Ret tt) -> pxmala_run o prm tune f2 start w = (w', Ret tt).
Proof.
  intros Hle. unfold pxmala_run, bind, get_inst, put_inst. cbn [w_inst w_rng].
  match goal with |- context [initial_sample o start ?w0] => destruct (initial_sample o start w0) as [w1 [[X d]|e|]] end; try discriminate.
  destruct (o_gradg o d); simpl; [|discriminate].
  destruct (o_proxf o X); simpl; [|discriminate].
  destruct (o_logpi o X d) as [[[? ?] ?]|]; simpl; [|discriminate].
  apply pxmala_loop_fuel. exact Hle.
Qed.

Lemma mala_terminates (o : ops) prm tune start (w : world) n :
  total_ops o -> sized (w_inst w) n -> p_nsamples prm = Z.of_nat n ->
  ((exists fuel w', pxmala_run o prm tune fuel start w = (w', Ret tt)) <->
   (exists x g0 tr idx,
      mh_starts o start (w_rng w) x g0 /\
      mh_path o tune 0 (x, i_delta (w_inst w), g0) tr /\
      accepted_on_grid (p_nburn prm) (p_ngap prm) tr idx /\ (n <= List.length idx)%nat)) /\
  (forall fuel, exists w', pxmala_run o prm tune fuel start w = (w', Ret tt) \/
                           pxmala_run o prm tune fuel start w = (w', NoFuel)).
Proof.
  intros HT HS HN. split; [split|].
  - intros (f & w' & H). destruct (mala_saved o prm tune f start w w' n HS HN H) as (x & g0 & tr & idx & l & A1 & A2 & A3 & A4 & A5 & _).
    exists x, g0, tr, idx. repeat (split; [assumption|]). pose proof (Forall2_length _ _ _ A4). lia.
  - intros (x & g0 & tr & idx & A1 & A2 & A3 & A4). exists (List.length tr).
    apply (mala_terminates_iff o prm tune (List.length tr) start w n x g0 tr idx); auto.
  - intros f. destruct (pxmala_run o prm tune f start w) as [w' out] eqn:E. exists w'.
    destruct out as [[]|e|]; auto. exfalso. exact (mala_no_exception o prm tune f start w w' _ n e HT HS HN E eq_refl).
Qed.
End Fuel.

(** every proposal rejected for ever *)
Lemma reject_forever :
  exists o : ops Z Z Z Z Z (option Z), total_ops o /\
    forall prm tune x n g fuel, p_nsamples prm = Z.of_nat (S n) ->
      exists w', pxmala_run o prm tune fuel (Some x) (demo_world (Z.of_nat (S n)) g) = (w', NoFuel).
Proof.
  exists demo_reject_ok. split; [apply demo_reject_total|]. intros prm tune x n g fuel HN.
  set (w := demo_world (Z.of_nat (S n)) g).
  assert (HS : sized (w_inst w) (S n)).
  { pose proof (demo_sized (Z.of_nat (S n)) g) as Q. rewrite Nat2Z.id in Q. exact Q. }
  destruct (mh_starts_exists demo_reject_ok (Some x) (w_rng w) demo_reject_total) as (x0 & g0 & ST).
  destruct (mh_path_exists demo_reject_ok tune demo_reject_total fuel 0 (x0, i_delta (w_inst w), g0)) as (tr & MP & HL).
  assert (NA : forall i s tr, mh_path demo_reject_ok tune i s tr -> forall k q, nth_error tr k <> Some (true, q)).
  { clear. intros i s tr H. induction H as [i s|i s acc s' l HT HP IH]; intros k q.
    - destruct k; discriminate.
    - destruct k as [|k]; [|apply IH]. simpl. intros Q. inv Q.
      destruct s as [[x dl] g], q as [[x' dl'] g'].
      destruct HT as (y & g1 & u & a & (dx & gx & px & A1 & A2 & A3 & A4) & B & C & D & _).
      destruct B as (dx' & gx' & px' & lx & dy & gy & py & ly & qxy & qyx & B1 & B2 & B3 & B4 & B5 & B6 & B7 & B8 & B9 & B10 & ->).
      cbn [demo_reject_ok demo_reject o_step o_logpi o_logtrans o_logrand o_kltb o_kadd o_ksub] in *. inv A4. inv B4. inv B8. inv B9. inv B10. inv C. cbn [fst] in D.
      symmetry in D. apply Z.ltb_lt in D.
      change (-1 < 0 + - (10 * (x + 1)) - 0 - - (10 * x)) in D. lia. }
  specialize (NA _ _ _ MP).
  assert (HG : accepted_on_grid (p_nburn prm) (p_ngap prm) tr []).
  { split; [constructor|]. intros k. split; [intros []|]. intros (_ & s & Hs). exact (NA _ _ Hs). }
  apply (mala_terminates_iff demo_reject_ok prm tune fuel (Some x) w (S n) x0 g0 tr [] demo_reject_total HS HN ST MP HL HG).
  simpl. lia.
Qed.
