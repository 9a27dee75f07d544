(** C01, C06, C43: the loops of the numerical samplers come to an end.  The
    statements of P_Samplers.v about operations that never raise are carried
    over to operations that work on vectors of the right length, and the actual
    operations of Mcmc.v are shown to do so. *)
From Coq Require Import List ZArith Lia Bool Reals Lra String.
From Coquelicot Require Import Coquelicot.
From Verif Require Import PyBase PyBaseFacts Sampler SamplerSpec SamplerFacts LoopProof SamplerMain WorksProof CVec Thresh Utils OpSpec Prior
  Forward Mcmc McmcSpec FwdProof StepProof McmcProof SkProof MeasProof MalaThms RSort ThreshSpec ThreshProof PriorProof P_Prior P_Samplers P_Mcmc.
Import ListNotations.
Notation length := List.length.

(** ** any operations *)
Section On.
Open Scope Z_scope.

Theorem C01_terminates_on : forall V D K P G I (o : ops V D K P G I) PV PD prm fuel start w n,
  works_on o PV PD start -> sized (w_inst w) n -> p_nsamples prm = Z.of_nat n ->
  (total_iters (p_nburn prm) (p_ngap prm) n <= fuel)%nat -> ~ line_array_missing (w_inst w) ->
  (exists w', myula_run o prm fuel start w = (w', Ret tt)) /\
  (exists w', skrock_run o prm fuel start w = (w', Ret tt)).
Proof.
  intros V D K P G I o PV PD prm fuel start w n W S N F L.
  set (o' := defaulted o (o_zeroV o) (o_zeroD o) (o_zeroK o)).
  assert (T : total_ops o') by apply defaulted_total. split.
  - destruct (C01_myula_terminates _ _ _ _ _ _ o' prm fuel start w n T S N F L) as (w' & E).
    unfold o' in E. rewrite (myula_run_ag o PV PD start W) in E. eauto.
  - destruct (C01_skrock_terminates _ _ _ _ _ _ o' prm fuel start w n T S N F L) as (w' & E).
    unfold o' in E. rewrite (skrock_run_ag o PV PD start W) in E. eauto.
Qed.
Print Assumptions C01_terminates_on.

Theorem C43_exceptions_on : forall V D K P G I (o : ops V D K P G I) PV PD prm fuel start w w' out n,
  works_on o PV PD start -> sized (w_inst w) n -> p_nsamples prm = Z.of_nat n ->
  (total_iters (p_nburn prm) (p_ngap prm) n <= fuel)%nat ->
  (myula_run o prm fuel start w = (w', out) ->
    (out = Exn AttributeError <->
       line_array_missing (w_inst w) /\
       exists i, p_nburn prm <= i /\ 0 <= i < Z.of_nat (total_iters (p_nburn prm) (p_ngap prm) n) /\
                 line_due (p_verbosity prm) i) /\
    (out <> Exn AttributeError -> out = Ret tt)) /\
  (skrock_run o prm fuel start w = (w', out) ->
    (out = Exn AttributeError <->
       line_array_missing (w_inst w) /\
       exists i, 0 <= i < Z.of_nat (total_iters (p_nburn prm) (p_ngap prm) n) /\ line_due (p_verbosity prm) i) /\
    (out <> Exn AttributeError -> out = Ret tt)).
Proof.
  intros V D K P G I o PV PD prm fuel start w w' out n W S N F.
  set (o' := defaulted o (o_zeroV o) (o_zeroD o) (o_zeroK o)).
  assert (T : total_ops o') by apply defaulted_total. split; intros E.
  - rewrite <- (myula_run_ag o PV PD start W (o_zeroV o) (o_zeroD o) (o_zeroK o)) in E.
    exact (C43_myula_exceptions _ _ _ _ _ _ o' prm fuel start w w' out n T S N F E).
  - rewrite <- (skrock_run_ag o PV PD start W (o_zeroV o) (o_zeroD o) (o_zeroK o)) in E.
    exact (C43_skrock_exceptions _ _ _ _ _ _ o' prm fuel start w w' out n T S N F E).
Qed.
Print Assumptions C43_exceptions_on.

(** an exception does not depend on how many iterations are allowed *)
Lemma gen_loop_fuel_exn {V D K P G : Type} prm body : forall f1 f2 i j X d (w w' : world V D K P G) e,
  (f1 <= f2)%nat -> gen_loop prm body f1 i j X d w = (w', Exn e) -> gen_loop prm body f2 i j X d w = (w', Exn e).
Proof.
  induction f1 as [|f1 IH]; intros f2 i j X d w w' e Hle H.
  - simpl in H. destruct f2; simpl; destruct (j <? p_nsamples prm); try exact H; discriminate.
  - destruct f2 as [|f2]; [lia|]. simpl in H |- *. destruct (j <? p_nsamples prm); [|exact H].
    unfold bind in *. destruct (body i j X d w) as [w1 [[[j' X'] d']|e'|]]; try exact H; try discriminate.
    apply IH; [lia|exact H].
Qed.
Theorem C43_fuel_irrelevant : forall V D K P G I (o : ops V D K P G I) prm f1 f2 start w w' e, (f1 <= f2)%nat ->
  (myula_run o prm f1 start w = (w', Exn e) -> myula_run o prm f2 start w = (w', Exn e)) /\
  (skrock_run o prm f1 start w = (w', Exn e) -> skrock_run o prm f2 start w = (w', Exn e)).
Proof.
  intros V D K P G I o prm f1 f2 start w w' e Hle. split.
  - unfold myula_run, bind. destruct (initial_sample o start w) as [w1 [[X d]|e'|]]; try discriminate; [|exact (fun H => H)].
    rewrite !myula_loop_gen. apply gen_loop_fuel_exn. exact Hle.
  - unfold skrock_run, bind. destruct (initial_sample o start w) as [w1 [[X d]|e'|]]; try discriminate; [|exact (fun H => H)].
    rewrite !skrock_loop_gen. apply gen_loop_fuel_exn. exact Hle.
Qed.
Print Assumptions C43_fuel_irrelevant.

(** PxMALA raises nothing, and comes to an end iff the chain accepts often
    enough on the thinning grid *)
Theorem C06_terminates_on : forall V D K P G I (o : ops V D K P G I) PV PD prm tune start w n,
  works_on o PV PD start -> sized (w_inst w) n -> p_nsamples prm = Z.of_nat n ->
  ((exists fuel w', pxmala_run o prm tune fuel start w = (w', Ret tt)) <->
   (exists x g0 tr idx,
      mh_starts o start (w_rng w) x g0 /\
      mh_path o tune 0 (x, i_delta (w_inst w), g0) tr /\
      accepted_on_grid (p_nburn prm) (p_ngap prm) tr idx /\ (n <= List.length idx)%nat)) /\
  (forall fuel, exists w', pxmala_run o prm tune fuel start w = (w', Ret tt) \/
                           pxmala_run o prm tune fuel start w = (w', NoFuel)).
Proof.
  intros V D K P G I o PV PD prm tune start w n W S N.
  set (o' := defaulted o (o_zeroV o) (o_zeroD o) (o_zeroK o)).
  assert (T : total_ops o') by apply defaulted_total.
  assert (AG : forall fuel w, pxmala_run o' prm tune fuel start w = pxmala_run o prm tune fuel start w)
    by (intros; apply (pxmala_run_ag o PV PD start W)).
  destruct (C06_terminates_iff _ _ _ _ _ _ o' prm tune start w n T S N) as (A & B). split; [split|].
  - intros (fuel & w' & E).
    destruct (C05_saved_iterates _ _ _ _ _ _ o prm tune fuel start w w' n S N E) as (x & g0 & tr & idx & l & E1 & E2 & E3 & E4 & E5 & _).
    exists x, g0, tr, idx. split; [exact E1|]. split; [exact E2|]. split; [exact E3|].
    rewrite (SamplerFacts.Forall2_length _ _ _ E4). lia.
  - intros (x & g0 & tr & idx & E1 & E2 & E3 & E4). destruct A as [_ A].
    destruct A as (fuel & w' & E).
    + destruct (defaulted_completes o (o_zeroV o) (o_zeroD o) (o_zeroK o)) as (Q1 & Q2 & Q3 & Q4 & Q5 & Q6 & Q7 & Q8 & _).
      assert (M : forall i s acc s', mh_trans o tune i s acc s' -> mh_trans o' tune i s acc s').
      { intros i [[a b] c] acc [[a' b'] c'] (y & g1 & u & al & (dx & gx & px & P1 & P2 & P3 & P4) &
          (dx' & gx' & px' & lx & dy & gy & py & ly & qxy & qyx & R1 & R2 & R3 & R4 & R5 & R6 & R7 & R8 & R9 & R10 & R11) & U1 & U2).
        exists y, g1, u, al. split; [exists dx, gx, px; auto 10|]. split; [|split; [exact U1|exact U2]].
        exists dx', gx', px', lx, dy, gy, py, ly, qxy, qyx. repeat split; auto. }
      exists x, g0, tr, idx. split; [|split; [|split; [exact E3|exact E4]]].
      * clear - E1 Q1 Q2 Q3 Q4 Q5. destruct E1 as (a1 & d & gr & p & t & a2 & a3 & a4 & a5). split; [exact (Q1 _ _ _ _ a1)|].
        exists d, gr, p, t. unfold o'. auto.
      * clear - E2 M. induction E2; econstructor; eauto.
    + rewrite AG in E. eauto.
  - intros fuel. destruct (B fuel) as (w' & E). rewrite AG in E. eauto.
Qed.
Print Assumptions C06_terminates_on.
End On.

(** ** the numerical samplers *)
Open Scope R_scope.

(** n parameters, m data points: the operators take and return vectors of these lengths *)
Definition shapes_fit (f : forward_op) (pr : prior_obj) (n m : nat) : Prop :=
  fo_nparams f = Some n /\ length (d_val (fo_data f)) = m /\ m_rows (fo_invcov f) = m /\ m_cols (fo_invcov f) = m /\
  maps (fo_forward f) n m /\ maps (fo_gradg f) m n /\ maps (pr_proxf pr) n n /\
  (forall x, length x = n -> exists r, pr_prior pr x = Ok r).
(** None or an array of n numbers *)
Definition start_fits (st : start_point) (n : nat) : Prop :=
  match st with StartNone => True | StartArray shape buf => length shape = 1%nat /\ length buf = n | StartOther => False end.

Lemma K_rec_length : forall f pr q delta n m, shapes_fit f pr n m ->
  (forall j, (j <= Z.to_nat (n_s q))%nat -> (1 <= j)%nat -> exists c, coef q j = Ok c) ->
  forall s X Z, (s <= Z.to_nat (n_s q))%nat -> length X = n -> length Z = n ->
  exists y, K_recursion f pr q delta X s Z = Ok y /\ length y = n.
Proof.
  intros f pr q delta n m (F1 & F2 & F3 & F4 & F5 & F6 & F7 & F8) CO.
  assert (GL : forall y, length y = n -> exists gl, gradlogpi f pr q y None = Ok gl /\ length gl = n).
  { intros y Hy. destruct (F7 y Hy) as (p & Ep & Lp). destruct (F5 y Hy) as (d & Ed & Ld). destruct (F6 d Ld) as (g & Eg & Lg).
    exists (langevin_drift (n_lmda q) y p g).
    split; [apply (gradlogpi_value f pr q y d p g None); auto; congruence|]. rewrite drift_length; congruence. }
  intros s X Z. revert s. assert (H : forall s, ((s <= Z.to_nat (n_s q))%nat -> length X = n -> length Z = n ->
     exists y, K_recursion f pr q delta X s Z = Ok y /\ length y = n) /\
     ((S s <= Z.to_nat (n_s q))%nat -> length X = n -> length Z = n ->
     exists y, K_recursion f pr q delta X (S s) Z = Ok y /\ length y = n)); [|intros s; apply H].
  induction s as [|s [IH1 IH2]].
  - split; intros Hs HX HZ; [exists X; auto|].
    cbn [K_recursion]. destruct (CO 1%nat Hs ltac:(lia)) as ([[mu nu] k] & ->). cbn [rbind].
    rewrite np_add_same by (rewrite vscal_length; congruence). cbn [rbind].
    destruct (GL (vadd X (vscal (RtoC (nu * sqrt (2 * delta))) Z))) as (gl & -> & Lg).
    { rewrite vadd_length; [exact HX|rewrite vscal_length; congruence]. }
    cbn [rbind]. rewrite np_add_same by (rewrite vscal_length; congruence). cbn [rbind].
    assert (LA : length (vadd X (vscal (RtoC (mu * delta)) gl)) = n) by (rewrite vadd_length; [exact HX|rewrite vscal_length; congruence]).
    rewrite np_add_same by (rewrite vscal_length; congruence). eexists. split; [reflexivity|].
    rewrite vadd_length; [exact LA|rewrite vscal_length; congruence].
  - split; [exact IH2|]. intros Hs HX HZ. change (K_recursion f pr q delta X (S (S s)) Z) with
      (let* c := coef q (S (S s)) in let '(mu, nu, k) := c in
       let* K1 := K_recursion f pr q delta X (S s) Z in
       let* gr := gradlogpi f pr q K1 None in
       let* a := np_add (vscal (RtoC (mu * delta)) gr) (vscal (RtoC nu) K1) in
       let* K2 := K_recursion f pr q delta X s Z in
       np_sub (vshift (RtoC k) a) K2).
    destruct (CO (S (S s)) Hs ltac:(lia)) as ([[mu nu] k] & ->). cbn [rbind].
    destruct IH2 as (K1 & -> & L1); [lia|auto|auto|]. cbn [rbind]. destruct (GL K1 L1) as (gl & -> & Lg). cbn [rbind].
    rewrite np_add_same by (rewrite !vscal_length; congruence). cbn [rbind].
    destruct IH1 as (K2 & -> & L2); [lia|auto|auto|]. cbn [rbind].
    assert (LA : length (vshift (RtoC k) (vadd (vscal (RtoC (mu * delta)) gl) (vscal (RtoC nu) K1))) = n).
    { unfold vshift. rewrite map_length, vadd_length; rewrite !vscal_length; congruence. }
    rewrite np_sub_same by congruence. eexists. split; [reflexivity|]. rewrite vsub_length; congruence.
Qed.

Lemma coef_exists : forall q j, (j <= Z.to_nat (n_s q))%nat -> (1 <= j)%nat -> exists c, coef q j = Ok c.
Proof.
  intros q j H1 H2. destruct (proj2 (proj2 (C16_construction q))) as (l & _ & _ & H); [lia|]. eexists. apply H. exact H1.
Qed.

Lemma store_row_ok : forall n c x, length x = n -> exists v, store_row n c x = Ok v.
Proof. intros n c x H. unfold store_row. rewrite H, Nat.eqb_refl. eauto. Qed.

Lemma mcmc_works : forall G (R0 : rng G) f pr q n m start, good_rng R0 -> shapes_fit f pr n m -> n_lmda q <> 0 -> start_fits start n ->
  works_on (mcmc_ops R0 f pr q) (fun x => length x = n) (fun d => length d = m) start.
Proof.
  intros G R0 f pr q n m start GR SF NZ ST. assert (SF' := SF). destruct SF as (F1 & F2 & F3 & F4 & F5 & F6 & F7 & F8). unfold works_on.
  cbn [o_init o_forward o_gradg o_proxf o_logpi o_step o_skstep o_logtrans o_rowV o_rowD mcmc_ops].
  split; [|split; [exact F5|split; [exact F6|split; [exact F7|split; [|split; [|split; [|split; [|split]]]]]]]].
  - intros g. destruct start as [|shape buf|]; [| |destruct ST]; unfold choose_start; rewrite F1.
    + assert (L := draw_length (g_laplace R0) (n_complex q) n g (fun g => proj2 (GR n g))).
      destruct (draw (g_laplace R0) (n_complex q) n g) as [X g']. eauto.
    + destruct ST as (S1 & S2). rewrite S1, S2. simpl. rewrite Nat.eqb_refl. exists buf, g. split; [reflexivity|exact S2].
  - intros x d Hx Hd. unfold logpi. rewrite np_sub_same by congruence. cbn [rbind].
    rewrite np_dot_ok by (rewrite vsub_length; congruence). cbn [rbind].
    unfold np_vdot. rewrite matvec_length, vsub_length, F3, F2, Nat.eqb_refl by congruence. cbn [rbind].
    destruct (F8 x Hx) as (r & ->). cbn [rbind]. eauto.
  - intros p x y z g Hx Hy Hz. rewrite (chain_step_value R0 f q p x y z g n) by auto.
    assert (L := draw_length (g_randn R0) (n_complex q) n g (fun g => proj1 (GR n g))).
    destruct (draw (g_randn R0) (n_complex q) n g) as [w g']. simpl in L.
    eexists _, _. split; [reflexivity|].
    assert (LD : length (langevin_drift (n_lmda q) x y z) = n) by (rewrite drift_length; congruence).
    rewrite !vadd_length; rewrite ?vadd_length; rewrite ?vscal_length; congruence.
  - intros p x g Hx. unfold skrock_step. rewrite Hx.
    assert (L := draw_length (g_randn R0) (n_complex q) n g (fun g => proj1 (GR n g))).
    destruct (draw (g_randn R0) (n_complex q) n g) as [w g']. simpl in L.
    destruct (K_rec_length f pr q p n m SF' (coef_exists q) (Z.to_nat (n_s q)) x w (le_n _) Hx L) as (y & -> & Ly). eauto.
  - intros p x y z t Hx Hy Hz Ht. unfold logtransition. rewrite np_sub_same by congruence. cbn [rbind].
    rewrite vopp_vscal. rewrite np_sub_same by (rewrite vscal_length, vsub_length; congruence). cbn [rbind].
    rewrite np_sub_same by congruence. cbn [rbind].
    rewrite np_sub_same; [cbn [rbind]; eauto|].
    rewrite vscal_length, !vsub_length; rewrite ?vscal_length, ?vsub_length; congruence.
  - intros x Hx. apply store_row_ok. rewrite F1. exact Hx.
  - intros x Hx. apply store_row_ok. congruence.
Qed.

(** MYULA and SKROCK return after exactly the scheduled number of iterations *)
Theorem C01_numerical_runs_end : forall G (R0 : rng G) f pr q prm fuel start w n m N,
  good_rng R0 -> shapes_fit f pr n m -> n_lmda q <> 0 -> start_fits start n ->
  sized (w_inst w) N -> p_nsamples prm = Z.of_nat N -> ~ line_array_missing (w_inst w) ->
  let total := total_iters (p_nburn prm) (p_ngap prm) N in
  ((exists w', myula_run (mcmc_ops R0 f pr q) prm fuel start w = (w', Ret tt)) <-> (total <= fuel)%nat) /\
  ((exists w', skrock_run (mcmc_ops R0 f pr q) prm fuel start w = (w', Ret tt)) <-> (total <= fuel)%nat).
Proof.
  intros G R0 f pr q prm fuel start w n m N GR SF NZ ST SZ EN LM total.
  assert (W := mcmc_works G R0 f pr q n m start GR SF NZ ST). split; split.
  - intros (w' & E). eapply C01_not_before; eauto.
  - intros H. apply (C01_terminates_on _ _ _ _ _ _ _ _ _ prm fuel start w N W SZ EN H LM).
  - intros (w' & E). eapply C01_not_before; eauto.
  - intros H. apply (C01_terminates_on _ _ _ _ _ _ _ _ _ prm fuel start w N W SZ EN H LM).
Qed.
Print Assumptions C01_numerical_runs_end.

(** with fewer iterations allowed they are stopped, never interrupted by an exception *)
Theorem C01_numerical_runs_stopped : forall G (R0 : rng G) f pr q prm fuel start w n m N,
  good_rng R0 -> shapes_fit f pr n m -> n_lmda q <> 0 -> start_fits start n ->
  sized (w_inst w) N -> p_nsamples prm = Z.of_nat N -> ~ line_array_missing (w_inst w) ->
  (fuel < total_iters (p_nburn prm) (p_ngap prm) N)%nat ->
  (exists w', myula_run (mcmc_ops R0 f pr q) prm fuel start w = (w', NoFuel)) /\
  (exists w', skrock_run (mcmc_ops R0 f pr q) prm fuel start w = (w', NoFuel)).
Proof.
  intros G R0 f pr q prm fuel start w n m N GR SF NZ ST SZ EN LM LT. set (T := total_iters (p_nburn prm) (p_ngap prm) N) in *.
  destruct (C01_numerical_runs_end G R0 f pr q prm T start w n m N GR SF NZ ST SZ EN LM) as ((_ & A) & (_ & B)).
  destruct (A (le_n _)) as (wa & Ea). destruct (B (le_n _)) as (wb & Eb). clear A B.
  destruct (C01_numerical_runs_end G R0 f pr q prm fuel start w n m N GR SF NZ ST SZ EN LM) as ((A & _) & (B & _)). split.
  - destruct (myula_run (mcmc_ops R0 f pr q) prm fuel start w) as [w' [[]|e|]] eqn:E; [|exfalso|eauto].
    + exfalso. assert (T <= fuel)%nat by (apply A; eauto). lia.
    + assert (E2 := proj1 (C43_fuel_irrelevant _ _ _ _ _ _ _ prm fuel T start w w' e ltac:(lia)) E). congruence.
  - destruct (skrock_run (mcmc_ops R0 f pr q) prm fuel start w) as [w' [[]|e|]] eqn:E; [|exfalso|eauto].
    + exfalso. assert (T <= fuel)%nat by (apply B; eauto). lia.
    + assert (E2 := proj2 (C43_fuel_irrelevant _ _ _ _ _ _ _ prm fuel T start w w' e ltac:(lia)) E). congruence.
Qed.
Print Assumptions C01_numerical_runs_stopped.

(** PxMALA raises nothing; it returns iff it accepts N proposals on the thinning grid *)
Theorem C06_numerical_runs_end_iff : forall G (R0 : rng G) f pr q prm tune start w n m N,
  good_rng R0 -> shapes_fit f pr n m -> n_lmda q <> 0 -> start_fits start n ->
  sized (w_inst w) N -> p_nsamples prm = Z.of_nat N ->
  let o := mcmc_ops R0 f pr q in
  ((exists fuel w', pxmala_run o prm tune fuel start w = (w', Ret tt)) <->
   (exists x g0 tr idx, mh_starts o start (w_rng w) x g0 /\ mh_path o tune 0 (x, i_delta (w_inst w), g0) tr /\
      accepted_on_grid (p_nburn prm) (p_ngap prm) tr idx /\ (N <= length idx)%nat)) /\
  (forall fuel, exists w', pxmala_run o prm tune fuel start w = (w', Ret tt) \/ pxmala_run o prm tune fuel start w = (w', NoFuel)).
Proof.
  intros G R0 f pr q prm tune start w n m N GR SF NZ ST SZ EN o.
  exact (C06_terminates_on _ _ _ _ _ _ o _ _ prm tune start w N (mcmc_works G R0 f pr q n m start GR SF NZ ST) SZ EN).
Qed.
Print Assumptions C06_numerical_runs_end_iff.

(** ** operators and regularisers as the library builds them *)

Lemma invcov_square : forall inv d s W, build_invcov inv d s = Ok W -> (forall A, s <> SMat A) ->
  m_rows W = length (d_val d) /\ m_cols W = length (d_val d).
Proof.
  intros inv d s W E NM. destruct s as [v c|v|v c|A|k]; unfold build_invcov in E.
  - destruct (_ && _); [discriminate|]. apply Ok_inj in E. subst. split; reflexivity.
  - destruct (d_complex d); [|discriminate]. apply Ok_inj in E. subst. split; reflexivity.
  - rewrite map_length in E. destruct (Nat.eqb_spec (length v) (length (d_val d))) as [L|]; [|discriminate].
    apply Ok_inj in E. subst. unfold diags. cbn [m_rows m_cols]. rewrite !map_length. auto.
  - destruct (NM A eq_refl).
  - discriminate.
Qed.

(** ForwardOperator(data, sig_d, setting, transform, measurement, nparams) with
    a scalar or one error per datum, [p] pixels (analysis: p = n) *)
Theorem C17_operator_shapes : forall inv d s set tr ms n p m f,
  Forward_init inv d s set (Some tr) (Some ms) (Some n) = Ok f -> (forall A, s <> SMat A) ->
  length (d_val d) = m -> maps (ms_forward ms) p m -> maps (ms_adjoint ms) m p ->
  (set = "synthesis"%string -> maps (t_inverse tr) n p /\ maps (t_inverse_adjoint tr) p n) ->
  (set = "analysis"%string -> p = n) ->
  forall pr, maps (pr_proxf pr) n n -> (forall x, length x = n -> exists r, pr_prior pr x = Ok r) ->
  shapes_fit f pr n m.
Proof.
  intros inv d s set tr ms n p m f E NM LD M1 M2 HS HA pr P1 P2.
  destruct (Forward_init_ok _ _ _ _ _ _ _ _ E) as (EB & EK & EF). clear E.
  destruct f as [d' W set' tr' ms' np']. cbn [fo_invcov] in EB, EF. injection EF as -> -> -> -> ->.
  destruct (invcov_square _ _ _ _ EB NM) as (R1 & C1).
  set (f := mkFwd d W set (Some tr) (Some ms) (Some n)).
  assert (GA : maps (gradg_analysis f) m p).
  { intros x Lx. unfold gradg_analysis, f. cbn [fo_measurement attr rbind fo_data fo_invcov].
    rewrite np_sub_same by congruence. cbn [rbind].
    rewrite np_dot_ok by (rewrite vsub_length; congruence). cbn [rbind].
    apply M2. rewrite matvec_length. congruence. }
  assert (D : set = "analysis"%string \/ set = "synthesis"%string).
  { unfold known_setting in EK. apply orb_true_iff in EK. rewrite !String.eqb_eq in EK. exact EK. }
  unfold shapes_fit. split; [reflexivity|]. split; [exact LD|]. split; [cbn; congruence|]. split; [cbn; congruence|].
  split; [|split; [|split; [exact P1|exact P2]]].
  - intros x Lx. unfold fo_forward, f. cbn [fo_setting fo_measurement fo_transform attr rbind].
    destruct D as [-> | ->]; cbn [String.eqb Ascii.eqb Bool.eqb].
    + apply M1. rewrite (HA eq_refl). exact Lx.
    + destruct (HS eq_refl) as (T1 & _). destruct (T1 x Lx) as (y & -> & Ly). cbn [rbind]. apply M1. exact Ly.
  - intros x Lx. unfold fo_gradg, f. cbn [fo_setting fo_transform attr rbind]. fold f.
    destruct (GA x Lx) as (y & Ey & Ly).
    destruct D as [-> | ->]; cbn [String.eqb Ascii.eqb Bool.eqb].
    + exists y. split; [exact Ey|]. rewrite <- (HA eq_refl). exact Ly.
    + rewrite Ey. cbn [rbind]. destruct (HS eq_refl) as (_ & T2). apply T2. exact Ly.
Qed.
Print Assumptions C17_operator_shapes.

(** the regularisers with a scalar threshold work on arrays of as many entries
    as they have weights *)
Theorem C36_shapes : forall set fwd adj t L til p, S2_init set fwd adj (TScal t) L til = Ok p ->
  maps (S2_proxf p) (length (s_weights p)) (length (s_weights p)) /\
  forall x, length x = length (s_weights p) -> exists r, S2_prior p x = Ok r.
Proof.
  intros set fwd adj t L til p E. destruct (S2_init_inv _ _ _ _ _ _ _ E) as (_ & PS & ET & _ & N).
  simpl in ET. apply Ok_inj in ET. split.
  - intros x Lx. exists (map2 soft1 x (map (Rmult t) (s_weights p))). unfold S2_proxf.
    rewrite synth_soft, <- ET by auto. split; [apply soft_same; rewrite map_length; auto|].
    rewrite map2_length; [exact Lx|rewrite map_length; exact Lx].
  - intros x Lx. eexists. apply (C36_prior _ _ _ _ _ _ _ x E Lx).
Qed.
Print Assumptions C36_shapes.

Theorem C36_power_shapes : forall set fwd adj t L til0 til eta p, Power_init set fwd adj (TScal t) L til0 til eta = Ok p ->
  maps (S2_proxf p) (length (s_weights p)) (length (s_weights p)) /\
  forall x, length x = length (s_weights p) -> exists r, Power_prior p x = Ok r.
Proof.
  intros set fwd adj t L til0 til eta p E. destruct (Power_init_inv _ _ _ _ _ _ _ _ _ E) as (b & s & ww & EB & _ & _ & _ & PS & ET & L2 & N & _).
  destruct (S2_init_inv _ _ _ _ _ _ _ EB) as (_ & _ & ETb & _). simpl in ETb. apply Ok_inj in ETb. split.
  - intros x Lx. rewrite <- ETb in ET. unfold thr_imul in ET. rewrite map_length in ET.
    destruct (Nat.eqb_spec (length (s_weights b)) (length (s_weights p))) as [Q|Q].
    + apply Ok_inj in ET. unfold S2_proxf. rewrite synth_soft, <- ET by auto.
      assert (LT : length (map2 Rmult (map (Rmult t) (s_weights b)) (s_weights p)) = length x)
        by (rewrite map2_length; rewrite map_length; congruence).
      eexists. split; [apply soft_same; exact LT|]. rewrite map2_length; congruence.
    + destruct (s_weights p) as [|c [|c' l]]; [discriminate|simpl in L2; lia|discriminate].
  - intros x Lx. destruct (C36_power_threshold_prior _ _ _ _ _ _ _ _ _ x E Lx) as (b' & _ & _ & _ & Q). eauto.
Qed.
Print Assumptions C36_power_shapes.

(** one parameter, one datum, L1 regulariser: three samples from iteration 2 on,
    every second one, take 7 iterations *)
Definition abs_prior := mkPrior (fun X => Ok (L1_prior X)) (fun X => soft X (TScal (1 / 4))).
Example C01_numerical_case : forall G (R0 : rng G) g fuel, good_rng R0 ->
  let f := unit_fwd (RtoC 1) in let q := mkNum (1 / 2) (1 / 2) 3 false in
  let prm := Build_params 3 2 2 5 ["logposterior"; "L2"; "prior"; "chain"]%string in
  shapes_fit f abs_prior 1 1 /\
  exists s0, new_sampler (mcmc_ops R0 f abs_prior q) prm (1 / 8) = Ok s0 /\
    ((exists w', myula_run (mcmc_ops R0 f abs_prior q) prm fuel StartNone (mkWorld s0 g) = (w', Ret tt)) <-> (7 <= fuel)%nat) /\
    ((exists w', skrock_run (mcmc_ops R0 f abs_prior q) prm fuel StartNone (mkWorld s0 g) = (w', Ret tt)) <-> (7 <= fuel)%nat).
Proof.
  intros G R0 g fuel GR f q prm.
  assert (SF : shapes_fit f abs_prior 1 1).
  { assert (I : maps (fun x => Ok x) 1 1) by (intros x Lx; eauto).
    unfold shapes_fit. repeat (split; [first [reflexivity|exact I]|]). split; [|split].
    - intros x Lx. unfold fo_gradg, gradg_analysis, f, unit_fwd.
      cbn [fo_setting fo_measurement attr rbind String.eqb Ascii.eqb Bool.eqb fo_data d_val fo_invcov].
      rewrite np_sub_same by (rewrite Lx; reflexivity). cbn [rbind].
      rewrite np_dot_ok by (rewrite vsub_length; rewrite Lx; reflexivity). cbn [rbind ms_adjoint id_meas].
      eexists. split; [reflexivity|]. rewrite matvec_length. reflexivity.
    - intros x Lx. eexists. split; [apply soft_scal|]. rewrite map_length. exact Lx.
    - intros x Lx. eexists. reflexivity. }
  split; [exact SF|]. eexists. split; [reflexivity|].
  change 7%nat with (total_iters (p_nburn prm) (p_ngap prm) 3).
  apply (C01_numerical_runs_end G R0 f abs_prior q prm fuel StartNone _ 1 1 3); auto.
  - simpl. lra.
  - exact I.
  - unfold sized, w_inst. cbn. auto 10.
  - unfold line_array_missing. cbn. intros [H|[H|H]]; discriminate.
Qed.
