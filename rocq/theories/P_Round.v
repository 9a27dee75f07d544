(** C62: rounding errors do not accumulate in MYULA chains. *)
From Coq Require Import List ZArith Lia Bool Reals Lra Psatz String.
From Coquelicot Require Import Coquelicot.
From Verif Require Import PyBase PyBaseFacts CVec Thresh ThreshSpec ThreshProof OpSpec Utils UtilsSpec UtilsProof Prior PriorProof Forward
  McmcSpec FwdProof Sampler SamplerSpec SamplerFacts SamplerMain Mcmc StepProof P_Samplers P_Mcmc P_Works StableProof P_Stable
  MomentSpec MomentProof P_Moments SkDivProof Ieee IeeeProof P_Ieee RoundProof.
Import ListNotations.
Notation length := List.length.
Open Scope R_scope.

(** ** Vocabulary *)

(** float operators that return numbers with an error of at most kappa per entry,
    on real vectors with entries of up to A; the results are at most A' *)
Definition approximates (ff : fl_problem) (f : forward_op) (pr : prior_obj) (n : nat) (A A' kappa : R) : Prop :=
  0 <= kappa /\ fp_nparams ff = n /\
  forall x, length x = n -> within A x ->
    exists dx gx px, fp_forward ff (map Fin x) = Ok dx /\ fp_gradg ff dx = Ok (map Fin gx) /\ fp_proxf ff (map Fin x) = Ok (map Fin px) /\
      length gx = n /\ length px = n /\ within A' gx /\ within A' px /\
      forall d g p, fo_forward f (map RtoC x) = Ok d -> fo_gradg f d = Ok g -> pr_proxf pr (map RtoC x) = Ok p ->
        close kappa (map RtoC gx) g /\ close kappa (map RtoC px) p.

(** the error of one step, in the Euclidean norm *)
Definition local_error (n : nat) (eps d l A' kappa : R) : R := sqrt (INR n) * (step_error eps d A' + (d / l + d) * kappa).

(** the sizes: rounding is accurate for the numbers that occur, samples stay in a
    ball of radius Rad, the float samples in the box of size A *)
Definition sizes_fit (rnd : R -> float) (f : forward_op) (pr : prior_obj) (q : numparams) (n : nat)
    (M eps d A A' W kappa Rad rho : R) : Prop :=
  accurate rnd M eps /\ eps <= 1 /\ eps <= d /\ room d (n_lmda q) A' <= M /\ A <= A' /\ 0 <= W <= A' /\
  (exists g0, gradlogpi f pr q (vzero n) None = Ok g0 /\ rho * Rad + d * nm g0 + sqrt (2 * d) * (sqrt (INR n) * W) <= Rad) /\
  Rad + local_error n eps d (n_lmda q) A' kappa / (1 - rho) <= A.

(** relative errors u and absolute errors eta, as for IEEE formats, up to the
    largest number *)
Theorem C62_relative : forall rnd u eta big, 0 <= u -> 0 <= eta ->
  (forall x, Rabs x <= big -> exists y, rnd x = Fin y /\ Rabs (y - x) <= u * Rabs x + eta) ->
  forall M, 0 <= M <= big -> accurate rnd M (u * M + eta).
Proof.
  intros rnd u eta big Hu He H M (M0 & MB). split; [assert (0 <= u * M) by (apply Rmult_le_pos; auto); lra|].
  intros x Hx. destruct (H x) as (y & E & B); [lra|]. exists y. split; [auto|]. eapply Rle_trans; [exact B|].
  apply Rplus_le_compat_r, Rmult_le_compat_l; auto.
Qed.
Print Assumptions C62_relative.

(** ** along the chain *)

Section Chain.
Variables (G : Type) (R0 : rng G) (lap : nat -> G -> list R * G) (rand : G -> R * G) (rnd : R -> float) (ff : fl_problem) (mu : float).
Variables (f : forward_op) (pr : prior_obj) (q : numparams) (n m : nat) (lo hi M eps d A A' W kappa Rad : R).
Hypothesis GR : good_rng R0.
Hypothesis BW : forall g, within W (fst (g_randn R0 n g)).
Hypothesis CP : convex_problem f pr n m lo hi.
Hypothesis Hl : 0 < n_lmda q.
Hypothesis NC : n_complex q = false.
Hypothesis Hd : 0 < d.
Hypothesis HS : d * (/ n_lmda q + hi) <= 2.
Hypothesis LH : lo <= hi.
Local Notation rho := (sqrt (rate (n_lmda q) d lo hi)).
Hypothesis RL : rho < 1.
Hypothesis AP : approximates ff f pr n A A' kappa.
Hypothesis SF : sizes_fit rnd f pr q n M eps d A A' W kappa Rad rho.
Local Notation err := (local_error n eps d (n_lmda q) A' kappa).
Local Notation fo := (fl_ops rnd (g_randn R0) lap rand ff (Fin (n_lmda q)) mu).

Lemma err_nonneg : 0 <= err.
Proof.
  destruct SF as ((E0 & _) & _ & _ & _ & _ & (W0 & WA) & _). destruct AP as (K0 & _). unfold local_error, step_error.
  assert (0 < sqrt (2 * d)) by (apply sqrt_lt_R0; lra). assert (0 < / sqrt (2 * d)) by (apply Rinv_0_lt_compat; auto).
  assert (0 < d / n_lmda q) by (apply Rdiv_lt_0_compat; auto).
  apply Rmult_le_pos; [apply sqrt_pos|]. assert (0 <= A' * (4 + / sqrt (2 * d))) by (apply Rmult_le_pos; lra).
  assert (0 <= eps * (7 + A' * (4 + / sqrt (2 * d)))) by (apply Rmult_le_pos; lra).
  assert (0 <= (d / n_lmda q + d) * kappa) by (apply Rmult_le_pos; lra). lra.
Qed.
Lemma rate_ok : 0 <= rate (n_lmda q) d lo hi.
Proof. apply C56_rate; auto; try lra. split; auto. apply CP. Qed.
Lemma contracts : forall X Y, length X = n -> length Y = n ->
  nm (vsub (next_mean f pr q d X) (next_mean f pr q d Y)) <= rho * nm (vsub X Y).
Proof.
  intros X Y LX LY. unfold nm. rewrite <- sqrt_mult by (try apply nrm2_nonneg; apply rate_ok). apply sqrt_le_1_alt.
  apply (next_mean_contracts f pr q n m lo hi d Y X); auto; lra.
Qed.
Lemma noise_length : forall g, length (fst (g_randn R0 n g)) = n. Proof. intros g. apply (GR n g). Qed.

(** one step of the exact chain *)
Lemma exact_step : forall Y dY gr p g Y' g', length Y = n -> fo_forward f Y = Ok dY -> fo_gradg f dY = Ok gr -> pr_proxf pr Y = Ok p ->
  chain_step R0 f q d Y p gr g = (Ok Y', g') ->
  g' = snd (g_randn R0 n g) /\ Y' = vadd (next_mean f pr q d Y) (vscal (RtoC (sqrt (2 * d))) (map RtoC (fst (g_randn R0 n g)))).
Proof.
  intros Y dY gr p g Y' g' LY EF EG EP ES.
  destruct (problem_parts f pr q n m lo hi Y CP LY) as (d0 & gr0 & p0 & A1 & A2 & A3 & A4 & A5 & A6 & A7 & A8).
  rewrite EF in A1. injection A1 as <-. rewrite EG in A2. injection A2 as <-. rewrite EP in A3. injection A3 as <-.
  destruct (C12_step G R0 f pr q d Y dY p gr g n GR ltac:(apply CP) ltac:(lra) LY EF EP EG A5 A4) as (gl & E1 & _ & _ & E2).
  rewrite E2, NC in ES. unfold noise in ES. injection ES as <- <-. split; [reflexivity|]. unfold next_mean, drift. rewrite E1. reflexivity.
Qed.

Lemma exact_ball : forall Y g, length Y = n -> nm Y <= Rad ->
  nm (vadd (next_mean f pr q d Y) (vscal (RtoC (sqrt (2 * d))) (map RtoC (fst (g_randn R0 n g))))) <= Rad.
Proof.
  intros Y g LY HY. destruct SF as (_ & _ & _ & _ & _ & (W0 & WA) & (g0 & EG0 & HR) & _).
  assert (LZ : length (vzero n) = n) by apply repeat_length.
  assert (LM := next_mean_length f pr q n m lo hi d Y CP LY). assert (LM0 := next_mean_length f pr q n m lo hi d (vzero n) CP LZ).
  eapply Rle_trans; [apply nm_vadd; rewrite vscal_length, map_length, noise_length; auto|]. rewrite nm_vscal.
  rewrite Rabs_pos_eq by apply sqrt_pos.
  assert (N := nm_noise W _ W0 (BW g)). rewrite noise_length in N.
  assert (N' : sqrt (2 * d) * nm (map RtoC (fst (g_randn R0 n g))) <= sqrt (2 * d) * (sqrt (INR n) * W)) by (apply Rmult_le_compat_l; [apply sqrt_pos|auto]).
  assert (CT := contracts Y (vzero n) LY LZ).
  assert (Z1 : vsub Y (vzero n) = Y).
  { clear - LY. revert Y LY. unfold vsub, vzero. induction n as [|k IH]; intros [|y Y] L; cbn in *; try lia; [reflexivity|]. f_equal; [ring|apply IH; lia]. }
  assert (Z2 : nm (next_mean f pr q d (vzero n)) = d * nm g0).
  { unfold next_mean, drift. rewrite EG0. rewrite <- (Rabs_pos_eq d) at 2 by lra. rewrite <- nm_vscal. f_equal.
    assert (Lg0 : length g0 = n). { unfold next_mean, drift in LM0. rewrite EG0 in LM0.
      destruct (problem_parts f pr q n m lo hi (vzero n) CP LZ) as (_ & _ & _ & _ & _ & _ & _ & _ & B1 & B2 & _). unfold drift in B2. rewrite EG0 in B2. exact B2. }
    clear - Lg0. revert g0 Lg0. unfold vadd, vscal, vzero. induction n as [|k IH]; intros [|y Y] L; cbn in *; try lia; [reflexivity|]. f_equal; [ring|apply IH; lia]. }
  rewrite Z1 in CT. assert (T := proj1 (nm_vsub (next_mean f pr q d Y) (next_mean f pr q d (vzero n)) ltac:(congruence))).
  assert (rho * nm Y <= rho * Rad) by (apply Rmult_le_compat_l; [apply sqrt_pos|auto]). lra.
Qed.

Lemma float_in_box : forall x Y, length x = n -> length Y = n -> nm Y <= Rad -> nm (vsub (map RtoC x) Y) <= err / (1 - rho) -> within A x.
Proof.
  intros x Y Lx LY HY HD. apply nm_within. assert (T := proj1 (nm_vsub (map RtoC x) Y ltac:(rewrite map_length; congruence))).
  destruct SF as (_ & _ & _ & _ & _ & _ & _ & HA). lra.
Qed.

(** one step of both *)
Lemma step_pair : forall x dX Y dY g X' dX' g1 Y' dY' g2, length x = n -> length Y = n ->
  fp_forward ff (map Fin x) = Ok dX -> fo_forward f Y = Ok dY -> nm Y <= Rad -> nm (vsub (map RtoC x) Y) <= err / (1 - rho) ->
  myula_trans fo (Fin d) (map Fin x, dX, g) (X', dX', g1) -> myula_trans (mcmc_ops R0 f pr q) d (Y, dY, g) (Y', dY', g2) ->
  g1 = g2 /\ length Y' = n /\ nm Y' <= Rad /\ fp_forward ff X' = Ok dX' /\ fo_forward f Y' = Ok dY' /\
  exists x', X' = map Fin x' /\ length x' = n /\ nm (vsub (map RtoC x') Y') <= rho * nm (vsub (map RtoC x) Y) + err.
Proof.
  intros x dX Y dY g X' dX' g1 Y' dY' g2 Lx LY EX EY BY BD (gr1 & p1 & A1 & B1 & S1 & F1) (gr2 & p2 & A2 & B2 & S2 & F2).
  cbn [fl_ops mcmc_ops o_gradg o_proxf o_step o_forward] in *.
  assert (BX := float_in_box x Y Lx LY BY BD). assert (E0 := err_nonneg).
  destruct AP as (K0 & NP & AP'). destruct (AP' x Lx BX) as (dx & gx & px & P1 & P2 & P3 & P4 & P5 & P6 & P7 & P8). clear AP'.
  rewrite EX in P1. injection P1 as <-. rewrite A1 in P2. injection P2 as ->. rewrite B1 in P3. injection P3 as ->.
  assert (SF' := SF). destruct SF' as (AC & E1 & ED & RM & AA & (W0 & WA) & _ & _).
  assert (LX : length (map RtoC x) = n) by (rewrite map_length; auto).
  destruct (problem_parts f pr q n m lo hi (map RtoC x) CP LX) as (d0 & gr0 & p0 & D1 & D2 & D3 & D4 & D5 & D6 & D7 & D8).
  destruct (P8 _ _ _ D1 D2 D3) as (C1 & C2).
  assert (WW : forall B (l : list R), B <= A' -> within B l -> within A' l) by (intros B l HB; apply Forall_impl; intros; lra).
  destruct (g_randn R0 n g) as (w & s') eqn:EW.
  assert (Lw : length w = n) by (assert (Q := noise_length g); rewrite EW in Q; exact Q).
  assert (Bw : within W w) by (assert (Q := BW g); rewrite EW in Q; exact Q).
  destruct (step_close rnd M eps d (n_lmda q) A' AC E1 ED Hd Hl ltac:(lra) RM G (g_randn R0) ff kappa x px gx p0 gr0 g w s' K0
    ltac:(rewrite NP; exact EW) ltac:(congruence) ltac:(congruence) ltac:(congruence) (WW A x AA BX) P7 P6 (WW W w WA Bw) C2 C1) as (y & Q1 & Q2 & Q3).
  rewrite Q1 in S1. injection S1 as <- <-.
  destruct (exact_step Y dY gr2 p2 g Y' g2 LY EY A2 B2 S2) as (-> & EQY). rewrite EW in EQY |- *. cbn [fst snd] in EQY |- *.
  assert (LMY := next_mean_length f pr q n m lo hi d Y CP LY). assert (LMX := next_mean_length f pr q n m lo hi d (map RtoC x) CP LX).
  assert (Lvw : length (vscal (RtoC (sqrt (2 * d))) (map RtoC w)) = n) by (rewrite vscal_length, map_length; auto).
  assert (LY' : length Y' = n) by (rewrite EQY, vadd_length; congruence).
  split; [reflexivity|]. split; [auto|].
  split; [assert (Q := exact_ball Y g LY BY); rewrite EW in Q; cbn [fst] in Q; rewrite EQY; exact Q|].
  split; [auto|]. split; [auto|]. exists y. split; [reflexivity|]. split; [congruence|].
  replace (vsub (vscal (RtoC (- / n_lmda q)) (vsub (map RtoC x) p0)) gr0) with (drift f pr q (map RtoC x)) in Q3 by exact D8.
  change (vadd (map RtoC x) (vscal (RtoC d) (drift f pr q (map RtoC x)))) with (next_mean f pr q d (map RtoC x)) in Q3.
  assert (SE : 0 <= step_error eps d A' + (d / n_lmda q + d) * kappa).
  { destruct AC as (EN & _). unfold step_error. assert (0 < sqrt (2 * d)) by (apply sqrt_lt_R0; lra).
    assert (0 < / sqrt (2 * d)) by (apply Rinv_0_lt_compat; auto). assert (0 < d / n_lmda q) by (apply Rdiv_lt_0_compat; auto).
    assert (0 <= A' * (4 + / sqrt (2 * d))) by (apply Rmult_le_pos; lra).
    assert (0 <= eps * (7 + A' * (4 + / sqrt (2 * d)))) by (apply Rmult_le_pos; lra).
    assert (0 <= (d / n_lmda q + d) * kappa) by (apply Rmult_le_pos; lra). lra. }
  assert (Q4 := close_nm _ _ _ SE Q3). rewrite map_length, Q2, Lx in Q4. fold err in Q4.
  set (Xe := vadd (next_mean f pr q d (map RtoC x)) (vscal (RtoC (sqrt (2 * d))) (map RtoC w))) in *.
  assert (LXe : length Xe = n) by (unfold Xe; rewrite vadd_length; congruence).
  assert (Ly : length (map RtoC y) = n) by (rewrite map_length; congruence).
  assert (TR : vsub (map RtoC y) Y' = vadd (vsub (map RtoC y) Xe) (vsub Xe Y')).
  { clear - Ly LXe LY'. revert Ly LXe LY'. generalize (map RtoC y) as a. generalize Xe as b. generalize Y' as c. unfold vsub, vadd.
    induction n as [|k IH]; intros [|c0 c] [|b0 b] [|a0 a] L1 L2 L3; cbn in *; try lia; [reflexivity|]. f_equal; [ring|apply IH; lia]. }
  assert (DM : vsub Xe Y' = vsub (next_mean f pr q d (map RtoC x)) (next_mean f pr q d Y)).
  { unfold Xe. rewrite EQY. clear - LMX LMY Lvw. revert LMX LMY Lvw. generalize (next_mean f pr q d (map RtoC x)) as a. generalize (next_mean f pr q d Y) as b.
    generalize (vscal (RtoC (sqrt (2 * d))) (map RtoC w)) as c. unfold vsub, vadd.
    induction n as [|k IH]; intros [|c0 c] [|b0 b] [|a0 a] L1 L2 L3; cbn in *; try lia; [reflexivity|]. f_equal; [ring|apply IH; lia]. }
  rewrite TR. eapply Rle_trans; [apply nm_vadd; rewrite !vsub_length; congruence|]. rewrite DM.
  assert (CT := contracts (map RtoC x) Y LX LY). lra.
Qed.

Theorem C62_paths : forall tr1 tr2 x dX Y dY g, length x = n -> length Y = n ->
  fp_forward ff (map Fin x) = Ok dX -> fo_forward f Y = Ok dY -> nm Y <= Rad -> nm (vsub (map RtoC x) Y) <= err / (1 - rho) ->
  path (myula_trans fo (Fin d)) (map Fin x, dX, g) tr1 -> path (myula_trans (mcmc_ops R0 f pr q) d) (Y, dY, g) tr2 ->
  forall k X' d1 g1 Y' d2 g2, nth_error tr1 k = Some (X', d1, g1) -> nth_error tr2 k = Some (Y', d2, g2) ->
    g1 = g2 /\ length Y' = n /\ nm Y' <= Rad /\
    exists x', X' = map Fin x' /\ length x' = n /\ nm (vsub (map RtoC x') Y') <= err / (1 - rho).
Proof.
  induction tr1 as [|s1 tr1 IH]; intros tr2 x dX Y dY g Lx LY EX EY BY BD P1 P2 k X' d1 g1 Y' d2 g2 N1 N2; [destruct k; discriminate|].
  destruct tr2 as [|s2 tr2]; [destruct k; discriminate|].
  destruct (path_inv _ _ _ _ P1) as (T1 & Q1). destruct (path_inv _ _ _ _ P2) as (T2 & Q2).
  destruct s1 as ((x1 & e1) & h1). destruct s2 as ((x2 & e2) & h2).
  destruct (step_pair x dX Y dY g x1 e1 h1 x2 e2 h2 Lx LY EX EY BY BD T1 T2) as (<- & L2 & B2 & F1 & F2 & y & -> & Ly & D).
  assert (D' : nm (vsub (map RtoC y) x2) <= err / (1 - rho)).
  { eapply Rle_trans; [exact D|]. assert (rho * nm (vsub (map RtoC x) Y) <= rho * (err / (1 - rho))) by (apply Rmult_le_compat_l; [apply sqrt_pos|auto]).
    assert (RL' := RL). revert H RL'. generalize err, rho. intros e r H RL'. replace (e / (1 - r)) with (r * (e / (1 - r)) + e) at 1 by (field; lra). lra. }
  destruct k as [|k].
  - cbn in N1, N2. injection N1 as <- <- <-. injection N2 as <- <- <-. eauto 8.
  - exact (IH tr2 y e1 x2 e2 h1 Ly L2 F1 F2 B2 D' Q1 Q2 k X' d1 g1 Y' d2 g2 N1 N2).
Qed.

(** two completed runs from the same start and the same generator state *)
Theorem C62_runs : forall prm N fuel1 fuel2 sh x w1 w2 w1' w2' c1 c2,
  length x = n -> nm (map RtoC x) <= Rad ->
  sized (w_inst w1) N -> sized (w_inst w2) N -> p_nsamples prm = Z.of_nat N ->
  i_delta (w_inst w1) = Fin d -> i_delta (w_inst w2) = d -> w_rng w1 = w_rng w2 ->
  myula_run fo prm fuel1 (Some (map Fin x)) w1 = (w1', Ret tt) ->
  myula_run (mcmc_ops R0 f pr q) prm fuel2 (StartArray sh (map RtoC x)) w2 = (w2', Ret tt) ->
  i_chain (w_inst w1') = Some c1 -> i_chain (w_inst w2') = Some c2 ->
  forall j r1 r2, (j < N)%nat -> nth_error c1 j = Some r1 -> nth_error c2 j = Some r2 ->
    exists y, r1 = map Fin y /\ length y = n /\ within A y /\ nm (vsub (map RtoC y) r2) <= err / (1 - rho).
Proof.
  intros prm N fuel1 fuel2 sh x w1 w2 w1' w2' c1 c2 Lx BX Z1 Z2 EN ED1 ED2 ER M1 M2 EC1 EC2 j r1 r2 Hj H1 H2.
  destruct (C01_myula_schedule _ _ _ _ _ _ fo prm fuel1 _ w1 w1' N Z1 EN M1) as (s1 & tr1 & l1 & S1 & P1 & T1 & _ & L1 & _ & R1 & V1).
  destruct (C01_myula_schedule _ _ _ _ _ _ (mcmc_ops R0 f pr q) prm fuel2 _ w2 w2' N Z2 EN M2) as (s2 & tr2 & l2 & S2 & P2 & T2 & _ & L2 & _ & R2 & V2).
  assert (CP' := CP). destruct CP' as (NP & _). assert (NPF : fp_nparams ff = n) by apply AP.
  assert (LX : length (map RtoC x) = n) by (rewrite map_length; auto).
  destruct s1 as ((x1 & dX) & g1). destruct S1 as (I1 & F1). cbn [fl_ops o_init o_forward] in I1, F1. unfold f_start in I1.
  rewrite map_length, Lx, NPF, Nat.eqb_refl in I1. injection I1 as <- <-.
  destruct s2 as ((x2 & dY) & g2). destruct S2 as (I2 & F2). cbn [mcmc_ops o_init o_forward choose_start] in I2, F2. rewrite NP in I2.
  destruct (negb (Nat.eqb (length sh) 1)); [discriminate|]. destruct (Nat.eqb_spec (length (map RtoC x)) n); [|discriminate]. injection I2 as <- <-.
  rewrite ED1 in P1. rewrite ED2, <- ER in P2.
  destruct R1 as (_ & _ & _ & _ & R1). destruct R2 as (_ & _ & _ & _ & R2). rewrite EC1 in R1. rewrite EC2 in R2.
  assert (ROW : forall V D K (row : V -> res V) (l : list (entry V D K)) old c r, length l = N -> rec_arr row (map e_X l) old (Some c) -> nth_error c j = Some r ->
            exists e, nth_error l j = Some e /\ row (e_X e) = Ok r).
  { clear - Hj. intros V D K row l old c r LL RA E. destruct old as [a0|]; [|destruct RA]. destruct RA as (rows & F2 & _ & ->).
    assert (LR := Forall2_length _ _ _ F2). rewrite map_length in LR. rewrite nth_error_app1 in E by lia.
    clear - F2 E. revert rows j F2 E. induction l as [|e l IH]; intros rows j F2 E; inversion F2; subst; [destruct j; discriminate|].
    destruct j as [|j]; cbn in *; [injection E as ->; eauto|]. eapply IH; eauto. }
  destruct (ROW _ _ _ _ l1 _ _ _ L1 R1 H1) as (u1 & U1 & O1). destruct (ROW _ _ _ _ l2 _ _ _ L2 R2 H2) as (u2 & U2 & O2). clear ROW.
  destruct (V1 j u1 U1) as (((X' & d1) & h1) & A1 & B1). destruct (V2 j u2 U2) as (((Y' & d2) & h2) & A2 & B2).
  assert (SD : nm (vsub (map RtoC x) (map RtoC x)) <= err / (1 - rho)).
  { replace (vsub (map RtoC x) (map RtoC x)) with (vscal (RtoC 0) (map RtoC x)).
    - rewrite nm_vscal, Rabs_R0, Rmult_0_l. apply Rmult_le_pos; [apply err_nonneg|]. left. apply Rinv_0_lt_compat. assert (RL' := RL). lra.
    - clear. unfold vscal, vsub. induction x as [|a x IH]; [reflexivity|]. cbn. rewrite IH. f_equal. ring. }
  destruct (C62_paths tr1 tr2 x dX (map RtoC x) dY (w_rng w1) Lx LX F1 F2 BX SD P1 P2 _ _ _ _ _ _ _ A1 A2) as (_ & LY' & BY' & y & -> & Ly & D).
  assert (E1 : e_X u1 = map Fin y) by (destruct u1 as ((? & ?) & ?); destruct B1; auto).
  assert (E2 : e_X u2 = Y') by (destruct u2 as ((? & ?) & ?); destruct B2; auto).
  rewrite E1 in O1. rewrite E2 in O2. cbn [mcmc_ops o_rowV] in O2. cbn [fl_ops o_rowV] in O1. unfold f_row in O1.
  rewrite map_length, Ly, NPF, Nat.eqb_refl in O1. injection O1 as <-. rewrite NP in O2. cbn [num_of] in O2.
  exists y. split; [reflexivity|]. split; [auto|]. split; [exact (float_in_box y Y' Ly LY' BY' D)|].
  eapply Rle_trans; [|exact D]. unfold nm. apply sqrt_le_1_alt. rewrite NC in O2.
  apply (stored_closer n false (map RtoC y) Y'); auto; [rewrite map_length; auto|].
  unfold store_row. rewrite map_length, Ly, Nat.eqb_refl. f_equal. rewrite map_map. apply map_ext. intros a. reflexivity.
Qed.
End Chain.
Print Assumptions C62_paths.
Print Assumptions C62_runs.

(** ** A concrete case *)

(** fixed point numbers with 20 binary places, rounded downwards *)
Definition grid (x : R) : float := Fin (IZR (up (x * 2 ^ 20) - 1) / 2 ^ 20).
Lemma grid_near : forall x, exists y, grid x = Fin y /\ Rabs (y - x) <= / 2 ^ 20.
Proof.
  intros x. eexists. split; [reflexivity|]. destruct (archimed (x * 2 ^ 20)) as (H1 & H2). rewrite minus_IZR.
  set (p := 2 ^ 20) in *. assert (0 < p) by (unfold p; apply pow_lt; lra). clearbody p.
  assert (B : -1 <= IZR (up (x * p)) - 1 - x * p <= 0) by lra.
  replace ((IZR (up (x * p)) - 1) / p - x) with ((IZR (up (x * p)) - 1 - x * p) * / p) by (field; lra).
  rewrite Rabs_mult. rewrite (Rabs_pos_eq (/ p)) by (left; apply Rinv_0_lt_compat; lra).
  assert (0 < / p) by (apply Rinv_0_lt_compat; lra). assert (Rabs (IZR (up (x * p)) - 1 - x * p) <= 1) by (apply Rabs_le; lra).
  rewrite <- (Rmult_1_l (/ p)) at 2. apply Rmult_le_compat_r; lra.
Qed.

(** the problem of C56_case and C60_case, datum 1: forward is the identity, gradg
    is X - 1 on the grid, proxf the identity *)
Definition grid_fl : fl_problem :=
  mkFl 1 [Fin 1] [[(0%nat, Fin 1)]] (fun x => Ok x) (fun d => fzip (fsub grid) d [Fin 1]) (fun x => Ok x) (fun _ => Ok (Fin 0)).

Lemma grid_approximates : approximates grid_fl (weighted_fwd 1) (mkPrior (fun _ => Ok 0) (fun X => soft X (TScal 0))) 1 7 9 (/ 2 ^ 20).
Proof.
  assert (P : 0 < / 2 ^ 20 <= 1). { split; [apply Rinv_0_lt_compat, pow_lt; lra|]. rewrite <- Rinv_1. apply Rinv_le_contravar; [lra|]. apply pow_R1_Rle. lra. }
  split; [lra|]. split; [reflexivity|]. intros [|a [|b x]] L B; try discriminate L. inversion B as [|? ? Ba _]; subst.
  destruct (grid_near (a - 1)) as (y & Ey & By).
  exists [Fin a], [y], [a]. split; [reflexivity|]. split. { cbn. unfold fsub. cbn. unfold Rminus in Ey. rewrite Ey. reflexivity. }
  split; [reflexivity|]. split; [reflexivity|]. split; [reflexivity|].
  split. { constructor; [|constructor]. apply Rabs_le. apply Rabs_le_between in By. apply Rabs_le_between in Ba. lra. }
  split. { constructor; [|constructor]. lra. }
  intros d g p E1 E2 E3. cbn [map] in *. cbn [pr_proxf] in E3. rewrite soft_zero in E3. injection E3 as <-.
  assert (E1' : fo_forward (weighted_fwd 1) [RtoC a] = Ok [RtoC a]) by reflexivity. rewrite E1' in E1. injection E1 as <-.
  rewrite weighted_gradg in E2. injection E2 as <-. split; (constructor; [|constructor]).
  - replace (RtoC y - RtoC 1 * (RtoC a - RtoC 1))%C with (RtoC (y - (a - 1))) by cplx. rewrite Cmod_R. exact By.
  - replace (RtoC a - RtoC a)%C with (RtoC 0) by cplx. rewrite Cmod_R, Rabs_R0. lra.
Qed.

Example C62_case : forall R0 : rng nat, good_rng R0 -> (forall g, within 1 (fst (g_randn R0 1 g))) ->
  let f := weighted_fwd 1 in let pr := mkPrior (fun _ => Ok 0) (fun X => soft X (TScal 0)) in let q := mkNum 1 1 1 false in
  let fo := fl_ops grid (g_randn R0) (g_randn R0) (fun g => (0, g)) grid_fl (Fin 1) (Fin 1) in
  forall N nburn ngap, (0 <= N)%Z -> 
  let prm := {| p_nsamples := N; p_nburn := nburn; p_ngap := ngap; p_verbosity := 0; p_track := ["logposterior"; "L2"; "prior"; "chain"]%string |} in
  let fuel := total_iters nburn ngap (Z.to_nat N) in
  exists s1 s2 w1 w2 c1 c2, new_sampler fo prm (Fin (1 / 2)) = Ok s1 /\ new_sampler (mcmc_ops R0 f pr q) prm (1 / 2) = Ok s2 /\
    myula_run fo prm fuel (Some [Fin 0]) (mkWorld s1 0%nat) = (w1, Ret tt) /\
    myula_run (mcmc_ops R0 f pr q) prm fuel (StartArray [1%nat] [RtoC 0]) (mkWorld s2 0%nat) = (w2, Ret tt) /\
    i_chain (w_inst w1) = Some c1 /\ i_chain (w_inst w2) = Some c2 /\ length c1 = Z.to_nat N /\ length c2 = Z.to_nat N /\
    forall j r1 r2, nth_error c1 j = Some r1 -> nth_error c2 j = Some r2 ->
      exists y, r1 = [Fin y] /\ nm (vsub [RtoC y] r2) <= 2 / 10 ^ 4.
Proof.
  intros R0 GR BW f pr q fo N nburn ngap N0 prm fuel.
  assert (CP : convex_problem f pr 1 1 1 1) by (apply weighted_problem; lra).
  destruct (C56_runs_exist nat R0 f pr q prm 1 1 1 1 (1 / 2) 0%nat fuel [RtoC 0] GR CP ltac:(cbn; lra) ltac:(intros; eexists; reflexivity) eq_refl N0 eq_refl
    (le_n _)) as (s2 & w2 & c2 & E2 & Z2 & D2 & M2 & C2 & L2). cbn [p_nsamples prm] in Z2, L2.
  destruct (C44_new_sampler_exists _ _ _ _ _ _ fo prm (Fin (1 / 2)) N0) as (s1 & E1).
  destruct (C44_new_sampler _ _ _ _ _ _ fo prm (Fin (1 / 2)) s1 E1) as (K1 & K2 & K3 & K4 & K5 & K6 & K7 & Z1). cbn in K1, K2, K3, K5.
  cbn [p_nsamples prm] in Z1. set (K := Z.to_nat N) in *.
  assert (EN : N = Z.of_nat K) by (unfold K; lia).
  assert (NM : ~ line_array_missing (w_inst (mkWorld s1 0%nat))).
  { unfold line_array_missing. cbn [w_inst]. rewrite K1, K2, K3. intros [H|[H|H]]; discriminate. }
  assert (GRL : forall k g, length (fst (g_randn R0 k g)) = k) by (intros k g; apply (GR k g)).
  assert (FS : float_shapes grid_fl 1 1).
  { split; [reflexivity|]. split; [reflexivity|]. split; [reflexivity|].
    split; [intros x L; exists x; auto|]. split; [|split; [intros x L; exists x; auto|intros x L; exists (Fin 0); reflexivity]].
    intros [|a [|b x]] L; try discriminate L. eexists. split; reflexivity. }
  destruct (C58_runs_end grid nat (g_randn R0) (g_randn R0) (fun g => (0, g)) grid_fl (Fin 1) (Fin 1) 1 1 prm false fuel (Some [Fin 0]) (mkWorld s1 0%nat) K
    GRL GRL FS ltac:(intros H; injection H; lra) ltac:(intros x H; injection H as <-; reflexivity) Z1 EN NM) as (RE & _).
  destruct (RE (le_n _)) as (w1 & M1). clear RE. fold fo in M1.
  destruct (C01_myula_schedule _ _ _ _ _ _ fo prm fuel _ (mkWorld s1 0%nat) w1 K Z1 EN M1) as (sa & tr1 & l1 & _ & _ & _ & _ & L1 & _ & R1 & _).
  destruct R1 as (_ & _ & _ & _ & R1). cbn [w_inst] in R1. rewrite K5 in R1. unfold rec_arr in R1.
  destruct (i_chain (w_inst w1)) as [c1|] eqn:C1; [|destruct R1].
  assert (LC1 : length c1 = K).
  { destruct R1 as (rows & F2 & LL & ->). assert (LR := Forall2_length _ _ _ F2). rewrite map_length in LR, LL.
    rewrite app_length, skipn_length, map_length, repeat_length. rewrite repeat_length in LL. lia. }
  exists s1, s2, w1, w2, c1, c2. split; [exact E1|]. split; [exact E2|]. split; [exact M1|]. split; [exact M2|]. split; [exact C1|]. split; [exact C2|].
  split; [exact LC1|]. split; [exact L2|]. intros j r1 r2 H1 H2.
  assert (Hj : (j < K)%nat) by (rewrite <- LC1; apply nth_error_Some; congruence).
  assert (RT : rate 1 (1 / 2) 1 1 = 1 / 2) by (unfold rate; field).
  assert (RB : sqrt (1 / 2) <= 71 / 100). { rewrite <- (sqrt_Rsqr (71 / 100)) by lra. apply sqrt_le_1_alt. unfold Rsqr. lra. }
  assert (S1 : sqrt (2 * (1 / 2)) = 1) by (replace (2 * (1 / 2)) with 1 by field; apply sqrt_1).
  assert (P : 0 < / 2 ^ 20 <= / 10 ^ 6). { split; [apply Rinv_0_lt_compat, pow_lt; lra|]. apply Rinv_le_contravar; [apply pow_lt; lra|]. cbn [pow]. lra. }
  assert (P6 : / 10 ^ 6 = 1 / 1000000) by (cbn [pow]; field). rewrite P6 in P.
  set (e := / 2 ^ 20) in *.
  assert (ER : local_error 1 e (1 / 2) 1 9 e / (1 - sqrt (1 / 2)) <= 2 / 10 ^ 4).
  { unfold local_error, step_error. cbn [INR]. rewrite sqrt_1, S1.
    replace (1 * (e * (7 + 9 * (4 + / 1)) + (1 / 2 / 1 + 1 / 2) * e)) with (53 * e) by field.
    apply Rle_trans with (53 * e / (29 / 100)).
    - unfold Rdiv. apply Rmult_le_compat_l; [lra|]. apply Rinv_le_contravar; lra.
    - cbn [pow]. lra. }
  assert (AC : accurate grid 100 e) by (split; [lra|]; intros x _; apply grid_near).
  assert (EG : gradlogpi f pr q (vzero 1) None = Ok [RtoC 1]).
  { unfold gradlogpi. cbn [pr_proxf pr]. rewrite soft_zero. cbn. do 2 f_equal. cplx. }
  assert (SF : sizes_fit grid f pr q 1 100 e (1 / 2) 7 9 1 e 6 (sqrt (rate (n_lmda q) (1 / 2) 1 1))).
  { cbn [n_lmda q]. rewrite RT. split; [exact AC|]. split; [lra|]. split; [lra|]. split; [unfold room; cbn [n_lmda q]; lra|]. split; [lra|]. split; [lra|].
    split; [|cbn [pow] in ER; cbn [n_lmda q]; lra]. exists [RtoC 1]. split; [exact EG|]. rewrite S1. cbn [INR]. rewrite sqrt_1.
    replace (nm [RtoC 1]) with 1; [lra|]. unfold nm. rewrite nrm2_cons. unfold nrm2. cbn. match goal with |- 1 = sqrt ?t => replace t with 1 by ring end. rewrite sqrt_1. reflexivity. }
  destruct (C62_runs nat R0 (g_randn R0) (fun g => (0, g)) grid grid_fl (Fin 1) f pr q 1 1 1 1 100 e (1 / 2) 7 9 1 e 6 GR BW CP ltac:(cbn; lra) eq_refl
    ltac:(lra) ltac:(cbn; lra) ltac:(lra) ltac:(cbn [n_lmda q]; rewrite RT; lra) grid_approximates SF prm K fuel fuel [1%nat] [0] (mkWorld s1 0%nat) (mkWorld s2 0%nat)
    w1 w2 c1 c2 eq_refl) with (j := j) (r1 := r1) (r2 := r2) as (y & -> & Ly & _ & D); auto.
  { cbn [map]. unfold nm. rewrite nrm2_cons. unfold nrm2. cbn. match goal with |- sqrt ?t <= _ => replace t with 0 by ring end. rewrite sqrt_0. lra. }
  destruct y as [|y [|? ?]]; try discriminate Ly. exists y. split; [reflexivity|]. cbn [map n_lmda q] in D. rewrite RT in D. lra.
Qed.

(** a generator of that kind *)
Definition alternating : rng nat :=
  mkRng (fun k g => (repeat (if Nat.even g then 1 else -1) k, S g)) (fun k g => (repeat 1 k, S g)) (fun g => (1 / 2, S g)).
Lemma alternating_ok : good_rng alternating /\ forall g, within 1 (fst (g_randn alternating 1 g)).
Proof.
  split; [intros k g; cbn; rewrite !repeat_length; auto|]. intros g. cbn. constructor; [|constructor].
  destruct (Nat.even g); [rewrite Rabs_R1|rewrite Rabs_left]; lra.
Qed.
