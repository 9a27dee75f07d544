(** C56: two MYULA chains driven by the same random numbers do not move apart
    when the step is small enough, and forget their starting points when the
    data determine the parameters. *)
From Coq Require Import List ZArith Lia Bool Reals Lra Psatz String.
From Coquelicot Require Import Coquelicot.
From Verif Require Import PyBase PyBaseFacts CVec Thresh ThreshSpec ThreshProof OpSpec Utils UtilsProof Prior PriorProof Forward
  McmcSpec FwdProof Sampler SamplerSpec SamplerFacts SamplerMain Mcmc StepProof P_Samplers P_Mcmc P_Works StableProof.
Import ListNotations.
Notation length := List.length.
Open Scope R_scope.

(** ** what is assumed of the operators *)

(** X - proxf(X) is firmly non-expansive on vectors of length n: true of every
    proximal map (C56_proximal), and more generally *)
Definition firm_residual (pr : prior_obj) (n : nat) : Prop :=
  maps (pr_proxf pr) n n /\
  forall X Y s t, length X = n -> length Y = n -> pr_proxf pr X = Ok s -> pr_proxf pr Y = Ok t ->
    let r := vsub (vsub X s) (vsub Y t) in nrm2 r <= Re (cdot r (vsub X Y)).

(** n parameters, m data; the curvature (f x)^H W (f x) / ||x||^2 of the data
    term lies between lo and hi *)
Definition convex_problem (f : forward_op) (pr : prior_obj) (n m : nat) (lo hi : R) : Prop :=
  fo_nparams f = Some n /\ linear_model f n m /\ hermitian (fo_invcov f) m /\ length (d_val (fo_data f)) = m /\
  firm_residual pr n /\ 0 <= lo /\ 0 < hi /\ curvature_between f n lo hi.

(** the squared distance shrinks by this factor at least *)
Definition rate (lmda delta lo hi : R) : R := 1 - delta * lo * (2 - delta * (/ lmda + hi)).

Theorem C56_rate : forall lmda delta lo hi, 0 < lmda -> 0 <= lo <= hi -> 0 <= delta -> delta * (/ lmda + hi) <= 2 ->
  0 <= rate lmda delta lo hi <= 1 /\
  (0 < lo -> 0 < delta -> delta * (/ lmda + hi) < 2 -> rate lmda delta lo hi < 1) /\
  (delta * (/ lmda + hi) <= 1 -> rate lmda delta lo hi <= 1 - delta * lo).
Proof.
  intros lmda delta lo hi Hl (H0 & H1) Hd HS. unfold rate. assert (I := Rinv_0_lt_compat _ Hl). set (a := / lmda) in *.
  assert (A : 0 <= delta * lo) by (apply Rmult_le_pos; auto). split; [split|split].
  - assert (delta * lo <= delta * (a + hi)) by (apply Rmult_le_compat_l; lra).
    assert (delta * lo * (2 - delta * (a + hi)) <= delta * lo * (2 - delta * lo)) by (apply Rmult_le_compat_l; lra).
    assert (0 <= (1 - delta * lo) ^ 2) by apply pow2_ge_0. nra.
  - assert (0 <= delta * lo * (2 - delta * (a + hi))) by (apply Rmult_le_pos; lra). lra.
  - intros L D S. assert (0 < delta * lo * (2 - delta * (a + hi))) by (repeat apply Rmult_lt_0_compat; lra). lra.
  - intros S. assert (delta * lo * 1 <= delta * lo * (2 - delta * (a + hi))) by (apply Rmult_le_compat_l; lra). lra.
Qed.
Print Assumptions C56_rate.

(** ** one step *)

Theorem C56_step : forall G (R0 : rng G) f pr q n m lo hi delta X Y dX dY gX gY pX pY g X' Y' g1 g2,
  good_rng R0 -> convex_problem f pr n m lo hi -> 0 < n_lmda q -> 0 <= delta -> delta * (/ n_lmda q + hi) <= 2 ->
  length X = n -> length Y = n ->
  fo_forward f X = Ok dX -> fo_forward f Y = Ok dY -> fo_gradg f dX = Ok gX -> fo_gradg f dY = Ok gY ->
  pr_proxf pr X = Ok pX -> pr_proxf pr Y = Ok pY ->
  chain_step R0 f q delta X pX gX g = (Ok X', g1) -> chain_step R0 f q delta Y pY gY g = (Ok Y', g2) ->
  g1 = g2 /\ length X' = n /\ length Y' = n /\
  nrm2 (vsub X' Y') <= rate (n_lmda q) delta lo hi * nrm2 (vsub X Y).
Proof.
  intros G R0 f pr q n m lo hi delta X Y dX dY gX gY pX pY g X' Y' g1 g2 GR (EN & LM & HW & LD & (MP & FR) & Lo & Hi & CB)
    Hl Hd HS LX LY EX EY EgX EgY EpX EpY SX SY.
  destruct (gradg_difference f n m X Y dX dY gX gY LM HW LD LX LY EX EY EgX EgY) as (LgX & LgY & _).
  destruct (gradg_cocoercive f n m lo hi X Y dX dY gX gY LM HW LD Lo Hi CB LX LY EX EY EgX EgY) as (C1 & C2).
  assert (LpX := maps_len _ _ _ _ _ MP LX EpX). assert (LpY := maps_len _ _ _ _ _ MP LY EpY).
  assert (NZ : n_lmda q <> 0) by lra.
  destruct (C12_step G R0 f pr q delta X dX pX gX g n GR EN NZ LX EX EpX EgX LpX LgX) as (glX & _ & _ & GX & EsX).
  destruct (C12_step G R0 f pr q delta Y dY pY gY g n GR EN NZ LY EY EpY EgY LpY LgY) as (glY & _ & _ & GY & EsY).
  rewrite SX in EsX. rewrite SY in EsY.
  assert (LW : length (fst (noise R0 (n_complex q) n g)) = n).
  { unfold noise. destruct (GR n g) as (L1 & _). destruct (GR n (snd (g_randn R0 n g))) as (L2 & _).
    destruct (n_complex q); cbn; [rewrite map2_length; congruence|rewrite map_length; auto]. }
  destruct (noise R0 (n_complex q) n g) as (w & g'). cbn in LW. injection EsX as -> ->. injection EsY as -> ->.
  split; [reflexivity|].
  assert (Lgl : forall Z p gr, length Z = n -> length p = n -> length gr = n ->
    length (vadd (vadd Z (vscal (RtoC delta) (vsub (vscal (RtoC (- / n_lmda q)) (vsub Z p)) gr))) (vscal (RtoC (sqrt (2 * delta))) w)) = n).
  { intros Z p gr L1 L2 L3.
    assert (A1 : length (vscal (RtoC (- / n_lmda q)) (vsub Z p)) = n) by (rewrite vscal_length, vsub_length; congruence).
    assert (A2 : length (vscal (RtoC delta) (vsub (vscal (RtoC (- / n_lmda q)) (vsub Z p)) gr)) = n) by (rewrite vscal_length, vsub_length; congruence).
    assert (A3 : length (vadd Z (vscal (RtoC delta) (vsub (vscal (RtoC (- / n_lmda q)) (vsub Z p)) gr))) = n) by (rewrite vadd_length; congruence).
    rewrite vadd_length; [exact A3|]. rewrite vscal_length. congruence. }
  subst glX glY. split; [auto|]. split; [auto|].
  rewrite step_difference by congruence.
  assert (K : forall a b : vec, length a = n -> length b = n -> length (vsub a b) = n) by (intros; rewrite vsub_length; congruence).
  apply contraction; auto.
  - rewrite !K; auto.
  - rewrite !K; auto.
Qed.
Print Assumptions C56_step.

(** ** any number of steps *)

Lemma path_inv : forall {St} (R : St -> St -> Prop) s s' l, path R s (s' :: l) -> R s s' /\ path R s' l.
Proof. intros St R s s' l P. inversion P; auto. Qed.

Theorem C56_paths : forall G (R0 : rng G) f pr q n m lo hi delta,
  good_rng R0 -> convex_problem f pr n m lo hi -> 0 < n_lmda q -> 0 <= delta -> delta * (/ n_lmda q + hi) <= 2 -> lo <= hi ->
  let trans := myula_trans (mcmc_ops R0 f pr q) delta in
  forall tr1 tr2 X dX Y dY g, length X = n -> length Y = n -> fo_forward f X = Ok dX -> fo_forward f Y = Ok dY ->
  path trans (X, dX, g) tr1 -> path trans (Y, dY, g) tr2 ->
  forall k X' d1 g1 Y' d2 g2, nth_error tr1 k = Some (X', d1, g1) -> nth_error tr2 k = Some (Y', d2, g2) ->
    g1 = g2 /\ length X' = n /\ length Y' = n /\
    nrm2 (vsub X' Y') <= rate (n_lmda q) delta lo hi ^ (k + 1) * nrm2 (vsub X Y).
Proof.
  intros G R0 f pr q n m lo hi delta GR CP Hl Hd HS LH trans.
  assert (RN : 0 <= rate (n_lmda q) delta lo hi).
  { apply C56_rate; auto. destruct CP as (_ & _ & _ & _ & _ & H0 & _). split; auto. }
  induction tr1 as [|s1 tr1 IH]; intros tr2 X dX Y dY g LX LY EX EY P1 P2 k X' d1 g1 Y' d2 g2 N1 N2; [destruct k; discriminate|].
  destruct tr2 as [|s2 tr2]; [destruct k; discriminate|].
  destruct (path_inv _ _ _ _ P1) as (T1 & Q1). destruct (path_inv _ _ _ _ P2) as (T2 & Q2).
  destruct s1 as ((x1 & e1) & h1). destruct s2 as ((x2 & e2) & h2).
  destruct T1 as (gr1 & p1 & A1 & B1 & S1 & F1). destruct T2 as (gr2 & p2 & A2 & B2 & S2 & F2).
  cbn [mcmc_ops o_gradg o_proxf o_step o_forward] in *.
  destruct (C56_step G R0 f pr q n m lo hi delta X Y dX dY gr1 gr2 p1 p2 g x1 x2 h1 h2 GR CP Hl Hd HS LX LY EX EY A1 A2 B1 B2 S1 S2) as (<- & Lx1 & Lx2 & D).
  destruct k as [|k].
  - cbn in N1, N2. injection N1 as <- <- <-. injection N2 as <- <- <-. rewrite pow_1. auto.
  - destruct (IH tr2 x1 e1 x2 e2 h1 Lx1 Lx2 F1 F2 Q1 Q2 k X' d1 g1 Y' d2 g2 N1 N2) as (E & L1 & L2 & D').
    split; [auto|]. split; [auto|]. split; [auto|].
    eapply Rle_trans; [exact D'|]. cbn [pow Nat.add].
    replace (rate (n_lmda q) delta lo hi * rate (n_lmda q) delta lo hi ^ (k + 1) * nrm2 (vsub X Y)) with
      (rate (n_lmda q) delta lo hi ^ (k + 1) * (rate (n_lmda q) delta lo hi * nrm2 (vsub X Y))) by ring.
    apply Rmult_le_compat_l; [apply pow_le; auto|exact D].
Qed.
Print Assumptions C56_paths.

(** ** the saved chains *)

Lemma stored_closer : forall k (c : bool) x y a b, length x = k -> length y = k ->
  store_row k (if c then fun z => z else to_float) x = Ok a -> store_row k (if c then fun z => z else to_float) y = Ok b ->
  nrm2 (vsub a b) <= nrm2 (vsub x y).
Proof.
  intros k c x y a b Lx Ly. unfold store_row. rewrite Lx, Ly, Nat.eqb_refl. intros Ea Eb. injection Ea as <-. injection Eb as <-.
  assert (L : length x = length y) by congruence. clear Lx Ly. revert y L. induction x as [|u x IH]; intros [|v y] L; cbn in L; try lia; [apply Rle_refl|].
  unfold vsub in *. cbn [map map2].
  assert (E : forall z (l : vec), nrm2 (z :: l) = Cmod z ^ 2 + nrm2 l) by reflexivity. rewrite !E.
  apply Rplus_le_compat; [|apply IH; lia]. destruct c; [apply Rle_refl|]. unfold to_float. rewrite !Cmod_sq. destruct u, v; cbn.
  assert (0 <= (r0 - r2) ^ 2) by apply pow2_ge_0. nra.
Qed.

(** Two completed runs from the same generator state: row j of the one chain
    and row j of the other. *)
Theorem C56_runs : forall G (R0 : rng G) f pr q prm n m lo hi N fuel1 fuel2 sh1 sh2 X Y w1 w2 w1' w2' c1 c2,
  let o := mcmc_ops R0 f pr q in
  let delta := i_delta (w_inst w1) in
  good_rng R0 -> convex_problem f pr n m lo hi -> lo <= hi -> 0 < n_lmda q -> 0 <= delta -> delta * (/ n_lmda q + hi) <= 2 ->
  sized (w_inst w1) N -> sized (w_inst w2) N -> p_nsamples prm = Z.of_nat N ->
  i_delta (w_inst w2) = delta -> w_rng w1 = w_rng w2 ->
  myula_run o prm fuel1 (StartArray sh1 X) w1 = (w1', Ret tt) ->
  myula_run o prm fuel2 (StartArray sh2 Y) w2 = (w2', Ret tt) ->
  i_chain (w_inst w1') = Some c1 -> i_chain (w_inst w2') = Some c2 ->
  forall j r1 r2, (j < N)%nat -> nth_error c1 j = Some r1 -> nth_error c2 j = Some r2 ->
    nrm2 (vsub r1 r2) <=
    rate (n_lmda q) delta lo hi ^ (Z.to_nat (save_iter (p_nburn prm) (p_ngap prm) j) + 1) * nrm2 (vsub X Y).
Proof.
  intros G R0 f pr q prm n m lo hi N fuel1 fuel2 sh1 sh2 X Y w1 w2 w1' w2' c1 c2 o delta GR CP LH Hl Hd HS Z1 Z2 EN ED ER
    M1 M2 EC1 EC2 j r1 r2 Hj H1 H2.
  destruct (C01_myula_schedule _ _ _ _ _ _ o prm fuel1 _ w1 w1' N Z1 EN M1) as (s1 & tr1 & l1 & S1 & P1 & T1 & _ & L1 & _ & R1 & V1).
  destruct (C01_myula_schedule _ _ _ _ _ _ o prm fuel2 _ w2 w2' N Z2 EN M2) as (s2 & tr2 & l2 & S2 & P2 & T2 & _ & L2 & _ & R2 & V2).
  assert (CP' := CP). destruct CP' as (NP & _).
  assert (ST : forall sh B g s, starts o (StartArray sh B) g s -> exists d, s = (B, d, g) /\ length B = n /\ fo_forward f B = Ok d).
  { intros sh B g ((x & d) & g') (I & F). unfold o in I, F. cbn [mcmc_ops o_init o_forward choose_start] in I, F. rewrite NP in I.
    destruct (negb (Nat.eqb (length sh) 1)); [discriminate|]. destruct (Nat.eqb_spec (length B) n); [|discriminate].
    injection I as <- <-. eauto. }
  destruct (ST _ _ _ _ S1) as (dX & -> & LX & EX). destruct (ST _ _ _ _ S2) as (dY & -> & LY & EY). clear ST.
  rewrite ED in P2. fold delta in P1. rewrite <- ER in P2.
  destruct R1 as (_ & _ & _ & _ & R1). destruct R2 as (_ & _ & _ & _ & R2). rewrite EC1 in R1. rewrite EC2 in R2.
  assert (ROW : forall (l : list (entry vec vec C)) old c r, length l = N -> rec_arr (o_rowV o) (map e_X l) old (Some c) -> nth_error c j = Some r ->
            exists e, nth_error l j = Some e /\ o_rowV o (e_X e) = Ok r).
  { clear - Hj. intros l old c r LL RA E. destruct old as [a0|]; [|destruct RA]. destruct RA as (rows & F2 & _ & ->).
    assert (LR := Forall2_length _ _ _ F2). rewrite map_length in LR. rewrite nth_error_app1 in E by lia.
    clear - F2 E. revert rows j F2 E. induction l as [|e l IH]; intros rows j F2 E; inversion F2; subst; [destruct j; discriminate|].
    destruct j as [|j]; cbn in *; [injection E as ->; eauto|]. eapply IH; eauto. }
  destruct (ROW l1 _ _ _ L1 R1 H1) as (u1 & U1 & O1). destruct (ROW l2 _ _ _ L2 R2 H2) as (u2 & U2 & O2). clear ROW.
  destruct (V1 j u1 U1) as (((X' & d1) & g1) & A1 & B1). destruct (V2 j u2 U2) as (((Y' & d2) & g2) & A2 & B2).
  destruct (C56_paths G R0 f pr q n m lo hi delta GR CP Hl Hd HS LH tr1 tr2 X dX Y dY (w_rng w1) LX LY EX EY P1 P2 _ _ _ _ _ _ _ A1 A2)
    as (_ & LX' & LY' & D).
  assert (E1 : e_X u1 = X') by (destruct u1 as ((? & ?) & ?); destruct B1; auto).
  assert (E2 : e_X u2 = Y') by (destruct u2 as ((? & ?) & ?); destruct B2; auto).
  rewrite E1 in O1. rewrite E2 in O2. unfold o in O1, O2. cbn [mcmc_ops o_rowV] in O1, O2. rewrite NP in O1, O2. cbn [num_of] in O1, O2.
  eapply Rle_trans; [|exact D]. eapply stored_closer; eauto.
Qed.
Print Assumptions C56_runs.

(** ** SKROCK with one stage *)

Lemma one_stage_difference : forall l dl sc c X Y p p' g g' w,
  length Y = length X -> length p = length X -> length p' = length X -> length g = length X -> length g' = length X -> length w = length X ->
  let x := vadd X (vscal c w) in let y := vadd Y (vscal c w) in
  vsub (vadd (vadd X (vscal (RtoC dl) (vsub (vscal (RtoC (- / l)) (vsub x p)) g))) (vscal sc w))
       (vadd (vadd Y (vscal (RtoC dl) (vsub (vscal (RtoC (- / l)) (vsub y p')) g'))) (vscal sc w)) =
  vsub (vsub x y) (vscal (RtoC dl) (vadd (vscal (RtoC (/ l)) (vsub (vsub x p) (vsub y p'))) (vsub g g'))) /\
  vsub x y = vsub X Y.
Proof.
  intros l dl sc c. unfold vsub, vadd, vscal.
  induction X as [|a X IH]; intros [|b Y] [|d p] [|e p'] [|h g] [|i g'] [|j w]; cbn; intros; try lia; auto.
  destruct (IH Y p p' g g' w) as (E1 & E2); try lia. cbn in E1, E2. split; f_equal; auto; [|ring].
  rewrite RtoC_opp. ring.
Qed.

Theorem C56_skrock_one_stage : forall f pr q n m lo hi delta X Y Z X' Y',
  convex_problem f pr n m lo hi -> 0 < n_lmda q -> 0 <= delta -> delta * (/ n_lmda q + hi) <= 2 -> n_s q = 1%Z ->
  length X = n -> length Y = n -> length Z = n ->
  K_recursion f pr q delta X 1 Z = Ok X' -> K_recursion f pr q delta Y 1 Z = Ok Y' ->
  length X' = n /\ length Y' = n /\ nrm2 (vsub X' Y') <= rate (n_lmda q) delta lo hi * nrm2 (vsub X Y).
Proof.
  intros f pr q n m lo hi delta X Y Z X' Y' CP Hl Hd HS Hs LX LY LZ EX EY.
  assert (CP' := CP). destruct CP' as (EN & LM & HW & LD & (MP & FR) & Lo & Hi & CB).
  destruct (linear_model_ops f n m LM) as (A & AP & EG). destruct AP as (MF & _ & _).
  set (c := RtoC (525 / 1000 * sqrt (2 * delta))).
  assert (V : forall B, length B = n -> exists d p g, let y := vadd B (vscal c Z) in length y = n /\ fo_forward f y = Ok d /\ pr_proxf pr y = Ok p /\ length p = n /\
    fo_gradg f d = Ok g /\ length g = n /\
    K_recursion f pr q delta B 1 Z = Ok (vadd (vadd B (vscal (RtoC delta) (langevin_drift (n_lmda q) y p g))) (vscal (RtoC (sqrt (2 * delta))) Z))).
  { intros B LB. assert (Ly : length (vadd B (vscal c Z)) = n) by (rewrite vadd_length; rewrite ?vscal_length; congruence).
    destruct (gradg_expansion f n m _ B LM HW LD Ly LB) as (d & _ & _ & g & Ed & _ & _ & _ & _ & _ & Eg & Lg & _).
    destruct (MP _ Ly) as (p & Ep & Lp). exists d, p, g. cbv zeta.
    split; [auto|]. split; [auto|]. split; [auto|]. split; [auto|]. split; [auto|]. split; [auto|].
    apply C16_one_stage; auto; try congruence.
    - fold c. apply (gradlogpi_value f pr q _ d); auto; congruence.
    - rewrite drift_length; congruence. }
  destruct (V X LX) as (dX & pX & gX & Lx & FX & PX & LpX & GX & LgX & KX). rewrite EX in KX. injection KX as ->.
  destruct (V Y LY) as (dY & pY & gY & Ly & FY & PY & LpY & GY & LgY & KY). rewrite EY in KY. injection KY as ->. clear V.
  assert (LN : forall B d, length B = n -> length d = n -> length (vadd (vadd B (vscal (RtoC delta) d)) (vscal (RtoC (sqrt (2 * delta))) Z)) = n).
  { intros B d LB Ld. assert (L1 : length (vadd B (vscal (RtoC delta) d)) = n) by (rewrite vadd_length; rewrite ?vscal_length; congruence).
    rewrite vadd_length; rewrite ?vscal_length; congruence. }
  split; [apply LN; [auto|rewrite drift_length; congruence]|]. split; [apply LN; [auto|rewrite drift_length; congruence]|].
  unfold langevin_drift. cbv zeta.
  destruct (one_stage_difference (n_lmda q) delta (RtoC (sqrt (2 * delta))) c X Y pX pY gX gY Z) as (E1 & E2); try congruence.
  cbv zeta in E1, E2. rewrite E1, <- E2.
  destruct (gradg_cocoercive f n m lo hi _ _ dX dY gX gY LM HW LD Lo Hi CB Lx Ly FX FY GX GY) as (C1 & C2).
  assert (K : forall a b : vec, length a = n -> length b = n -> length (vsub a b) = n) by (intros; rewrite vsub_length; congruence).
  apply contraction; auto; rewrite !K; auto.
Qed.
Print Assumptions C56_skrock_one_stage.

(** ** these runs exist *)

Lemma convex_shapes : forall f pr n m lo hi, convex_problem f pr n m lo hi ->
  (forall x, length x = n -> exists r, pr_prior pr x = Ok r) -> shapes_fit f pr n m.
Proof.
  intros f pr n m lo hi (EN & LM & (HR & HC & _) & LD & (MP & _) & _) PT.
  destruct (linear_model_ops f n m LM) as (A & (MF & MA & _) & EG).
  split; [auto|]. split; [auto|]. split; [auto|]. split; [auto|]. split; [auto|]. split; [|split; auto].
  - intros x Lx. rewrite EG, np_sub_same by congruence. cbn [rbind].
    rewrite np_dot_ok by (rewrite vsub_length; congruence). cbn [rbind]. apply MA. rewrite matvec_length; auto.
Qed.

Theorem C56_runs_exist : forall G (R0 : rng G) f pr q prm n m lo hi delta g fuel X,
  let o := mcmc_ops R0 f pr q in
  good_rng R0 -> convex_problem f pr n m lo hi -> 0 < n_lmda q ->
  (forall x, length x = n -> exists r, pr_prior pr x = Ok r) -> length X = n ->
  (0 <= p_nsamples prm)%Z -> p_track prm = ["logposterior"; "L2"; "prior"; "chain"]%string ->
  (total_iters (p_nburn prm) (p_ngap prm) (Z.to_nat (p_nsamples prm)) <= fuel)%nat ->
  exists s0 w' c, new_sampler o prm delta = Ok s0 /\ sized s0 (Z.to_nat (p_nsamples prm)) /\ i_delta s0 = delta /\
    myula_run o prm fuel (StartArray [n] X) (mkWorld s0 g) = (w', Ret tt) /\ i_chain (w_inst w') = Some c /\
    length c = Z.to_nat (p_nsamples prm).
Proof.
  intros G R0 f pr q prm n m lo hi delta g fuel X o GR CP Hl PT LX NN ET HF. set (N := Z.to_nat (p_nsamples prm)) in *.
  destruct (C44_new_sampler_exists _ _ _ _ _ _ o prm delta NN) as (s0 & E0).
  destruct (C44_new_sampler _ _ _ _ _ _ o prm delta s0 E0) as (K1 & K2 & K3 & K4 & K5 & K6 & K7 & SZ). fold N in SZ, K1, K2, K3, K5. rewrite ET in K1, K2, K3, K5.
  cbn in K1, K2, K3, K5.
  assert (EN : p_nsamples prm = Z.of_nat N) by (unfold N; lia).
  assert (NM : ~ line_array_missing (w_inst (mkWorld s0 g))).
  { unfold line_array_missing. cbn [w_inst]. rewrite K1, K2, K3. intros [H|[H|H]]; discriminate. }
  destruct (C01_numerical_runs_end G R0 f pr q prm fuel (StartArray [n] X) (mkWorld s0 g) n m N GR (convex_shapes f pr n m lo hi CP PT) ltac:(lra)
    (conj eq_refl LX) SZ EN NM) as ((_ & A) & _).
  destruct (A HF) as (w' & E). exists s0, w'.
  destruct (C01_myula_schedule _ _ _ _ _ _ o prm fuel _ (mkWorld s0 g) w' N SZ EN E) as (s1 & tr1 & l1 & _ & _ & _ & _ & L1 & _ & R1 & _).
  destruct R1 as (_ & _ & _ & _ & R1). cbn [w_inst] in R1. rewrite K5 in R1. unfold rec_arr in R1.
  destruct (i_chain (w_inst w')) as [c|] eqn:EC; [|destruct R1]. exists c.
  split; [auto|]. split; [auto|]. split; [auto|]. split; [auto|]. split; [auto|].
  destruct R1 as (rows & F2 & LL & ->). assert (LR := Forall2_length _ _ _ F2). rewrite map_length in LR, LL.
  rewrite app_length, skipn_length, map_length, repeat_length. rewrite repeat_length in LL. lia.
Qed.
Print Assumptions C56_runs_exist.

(** ** the regularisers of the package qualify *)

Theorem C56_proximal : forall pr n h,
  (forall X, length X = n -> exists s, pr_proxf pr X = Ok s /\ is_prox h X s) -> firm_residual pr n.
Proof.
  intros pr n h PM. split.
  - intros X LX. destruct (PM X LX) as (s & E & P). exists s. split; [auto|]. destruct P; congruence.
  - intros X Y s t LX LY EX EY. destruct (PM X LX) as (s' & E & Ps). rewrite EX in E. injection E as <-.
    destruct (PM Y LY) as (t' & E & Pt). rewrite EY in E. injection E as <-. apply (residual_firm h); auto. congruence.
Qed.
Print Assumptions C56_proximal.

(** [fwd] does not enlarge vectors of length m *)
Definition not_enlarging (fwd : vec -> res vec) (m : nat) : Prop :=
  forall y z, length y = m -> fwd y = Ok z -> nrm2 z <= nrm2 y.

(** synthesis: any non-negative thresholds; analysis: any adjoint pair whose
    forward does not enlarge, in particular orthonormal and redundant Parseval
    frames (for which proxf is not a proximal map of T||adj(.)||_1, C35) *)
Theorem C56_regularisers : forall fwd adj T Tl p r n, (forall t, In t Tl -> 0 <= t) ->
  (L1_init "synthesis" fwd adj T = Ok p -> thresholds T n Tl -> firm_residual (mkPrior r (proxf p)) n) /\
  (forall m, L1_init "analysis" fwd adj T = Ok p -> thresholds T m Tl ->
     adjoint_pair adj fwd n m -> not_enlarging fwd m -> firm_residual (mkPrior r (proxf p)) n).
Proof.
  intros fwd adj T Tl p r n NN. split.
  - intros E TH. injection E as <-. apply (C56_proximal _ n (wl1 Tl)). intros X LX. exists (map2 soft1 X Tl). cbn [pr_proxf].
    rewrite synth_soft by reflexivity. cbn [p_T]. split; [apply soft_thresholds; rewrite LX; auto|].
    apply soft_is_prox; auto. destruct TH; congruence.
  - intros m E TH AP NE. injection E as <-. assert (LA := adjoint_linear _ _ _ _ AP).
    assert (LF := adjoint_linear _ _ _ _ (adjoint_swap _ _ _ _ AP)). destruct AP as (MA & MF & AD).
    assert (LT : length Tl = m) by apply TH.
    assert (V : forall X, length X = n -> exists a f, adj X = Ok a /\ length a = m /\ fwd (vsub (map2 soft1 a Tl) a) = Ok f /\ length f = n /\
      proxf (mkL1 "analysis" fwd adj T) X = Ok (vadd X f)).
    { intros X LX. destruct (MA X LX) as (a & Ea & La).
      assert (Ls : length (map2 soft1 a Tl) = m) by (rewrite map2_length; congruence).
      destruct (MF (vsub (map2 soft1 a Tl) a) ltac:(rewrite vsub_length; congruence)) as (f & Ef & Lf).
      exists a, f. split; [auto|]. split; [auto|]. split; [auto|]. split; [auto|].
      assert (HT : thresholds T (length a) Tl) by (rewrite La; auto).
      change (proxf_analysis (mkL1 "analysis" fwd adj T) X = Ok (vadd X f)). unfold proxf_analysis. cbn [p_adj p_fwd p_T].
      rewrite Ea. cbn [rbind]. rewrite (soft_thresholds _ _ _ HT). cbn [rbind].
      unfold np_sub. rewrite np_bin_same by congruence. cbn [rbind]. change (map2 Cminus (map2 soft1 a Tl) a) with (vsub (map2 soft1 a Tl) a).
      rewrite Ef. cbn [rbind]. unfold np_add. rewrite np_bin_same by congruence. reflexivity. }
    split.
    + intros X LX. destruct (V X LX) as (a & f & _ & _ & _ & Lf & E). exists (vadd X f). split; [exact E|]. rewrite vadd_length; congruence.
    + intros X Y s t LX LY Es Et. cbn [pr_proxf] in Es, Et.
      destruct (V X LX) as (a & f & Ea & La & Ef & Lf & E1). rewrite E1 in Es. injection Es as <-.
      destruct (V Y LY) as (b & h & Eb & Lb & Eh & Lh & E2). rewrite E2 in Et. injection Et as <-. clear V E1 E2.
      set (u := map2 soft1 a Tl) in *. set (v := map2 soft1 b Tl) in *.
      assert (Lu : length u = m) by (unfold u; rewrite map2_length; congruence).
      assert (Lv : length v = m) by (unfold v; rewrite map2_length; congruence).
      assert (Pu : is_prox (wl1 Tl) a u) by (apply soft_is_prox; auto; congruence).
      assert (Pv : is_prox (wl1 Tl) b v) by (apply soft_is_prox; auto; congruence).
      assert (FI := residual_firm _ a b u v ltac:(congruence) Pu Pv). cbv zeta in FI.
      assert (K : forall k (x y : vec), length x = k -> length y = k -> length (vsub x y) = k) by (intros; rewrite vsub_length; congruence).
      assert (ER : vsub (vsub a u) (vsub b v) = vsub (vsub v b) (vsub u a)).
      { assert (L1 : length u = length a) by congruence. assert (L2 : length v = length a) by congruence.
        assert (L3 : length b = length a) by congruence. clearbody u v. clear - L1 L2 L3.
        revert u v b L1 L2 L3. unfold vsub. induction a as [|z a IH]; intros [|? u] [|? v] [|? b]; cbn; intros; try lia; auto.
        f_equal; [ring|apply IH; lia]. }
      assert (EO : vsub (vsub X (vadd X f)) (vsub Y (vadd Y h)) = vsub h f).
      { assert (L1 : length Y = length X) by congruence. assert (L2 : length f = length X) by congruence. assert (L3 : length h = length X) by congruence.
        clear - L1 L2 L3. revert Y f h L1 L2 L3. unfold vsub, vadd. induction X as [|z X IH]; intros [|? Y] [|? f] [|? h]; cbn; intros; try lia; auto.
        f_equal; [ring|]. apply IH; lia. }
      assert (EF : fwd (vsub (vsub a u) (vsub b v)) = Ok (vsub h f)).
      { rewrite ER. apply (linear_sub _ m).
        all: try assumption. all: try (apply K; assumption). }
      assert (EA : adj (vsub X Y) = Ok (vsub a b)) by (apply (linear_sub _ n); auto).
      assert (LR : length (vsub (vsub a u) (vsub b v)) = m) by auto.
      rewrite EO. eapply Rle_trans; [exact (NE _ _ LR EF)|]. eapply Rle_trans; [exact FI|].
      rewrite (AD (vsub X Y) (vsub (vsub a u) (vsub b v)) (vsub a b) (vsub h f)); auto. apply Rle_refl.
Qed.
Print Assumptions C56_regularisers.

Theorem C56_frames : forall fwd adj n m, adjoint_pair adj fwd n m ->
  (left_inverse adj fwd m -> not_enlarging fwd m) /\ (left_inverse fwd adj n -> not_enlarging fwd m).
Proof.
  intros fwd adj n m (MA & MF & AD). split; intros LI y z Ly Ez; assert (Lz := maps_len _ _ _ _ _ MF Ly Ez).
  - assert (E := AD z y y z Lz Ly (LI y z Ly Ez) Ez). rewrite !cdot_self in E. apply RtoC_inj in E. lra.
  - destruct (MA z Lz) as (w & Ew & Lw). assert (E := AD z y w z Lz Ly Ew Ez). rewrite cdot_self in E. apply (f_equal Re) in E. rewrite Re_RtoC in E.
    assert (F := LI z w Lz Ew). assert (E2 := AD z w w z Lz Lw Ew F). rewrite !cdot_self in E2. apply RtoC_inj in E2.
    assert (N := nrm2_nonneg (vsub y w)). rewrite nrm2_vsub_expand in N by congruence. rewrite (Re_cdot_sym w y) in N. lra.
Qed.
Print Assumptions C56_frames.

(** ** where the drift vanishes *)

(** minus the log of the density the drift belongs to: half the chi-squared
    plus the envelope of the regulariser [gp] *)
Definition potential (f : forward_op) (gp : vec -> R) (lmda : R) (X : vec) (v : R) : Prop :=
  exists fx e, fo_forward f X = Ok fx /\ is_envelope gp lmda X e /\
    v = 1 / 2 * Re (quadform (fo_invcov f) (vsub (d_val (fo_data f)) fx)) + e.

Lemma envelope_gradient_len : forall gp lmda n, 0 < lmda ->
  (forall Y, length Y = n -> exists s, is_prox (fun u => lmda * gp u) Y s) ->
  forall X s, length X = n -> is_prox (fun u => lmda * gp u) X s ->
  is_gradient (is_envelope gp lmda) (/ (2 * lmda)) X (vscal (RtoC (/ lmda)) (vsub X s)).
Proof.
  intros gp lmda n Hl EX X s LX P.
  set (gp' := fun u : vec => if Nat.eqb (length u) n then gp u else 0).
  assert (EQ : forall u, length u = n -> gp' u = gp u) by (intros u Lu; unfold gp'; rewrite Lu, Nat.eqb_refl; reflexivity).
  assert (EX' : forall x, exists s, is_prox (fun u => lmda * gp' u) x s).
  { intros x. destruct (Nat.eq_dec (length x) n) as [Lx|Lx].
    - destruct (EX x Lx) as (t & Pt). exists t. apply (is_prox_ext (fun u => lmda * gp u)); auto. intros u Lu. rewrite EQ by congruence. reflexivity.
    - exists x. split; [reflexivity|]. intros u Lu. unfold prox_objective, gp'. apply Nat.eqb_neq in Lx. rewrite Lu, Lx.
      assert (Z : vsub x x = vzero (length x)).
      { unfold vsub, vzero. clear. induction x; cbn; f_equal; auto; ring. }
      rewrite Z. assert (Z2 : nrm2 (vzero (length x)) = 0) by (apply nrm2_zero_iff; unfold vzero; rewrite repeat_length; reflexivity).
      rewrite Z2. lra. }
  assert (P' : is_prox (fun u => lmda * gp' u) X s).
  { apply (is_prox_ext (fun u => lmda * gp u)); auto. intros u Lu. rewrite EQ by congruence. reflexivity. }
  destruct (envelope_gradient gp' lmda Hl EX' X s P') as (LG & Q). split; [exact LG|].
  assert (TR : forall y e, length y = n -> is_envelope gp lmda y e -> is_envelope gp' lmda y e).
  { intros y e Ly ((u & Lu & Eu) & H). split; [exists u; split; [auto|]; rewrite EQ by congruence; auto|].
    intros v Lv. rewrite EQ by congruence. auto. }
  intros h e e' Lh He He'. apply Q; [auto|apply TR; auto|apply TR; auto]. rewrite vadd_length; congruence.
Qed.

Theorem C56_drift_zero : forall f pr q n m lo hi gp X gl,
  convex_problem f pr n m lo hi -> 0 < n_lmda q ->
  (forall Y, length Y = n -> exists s, pr_proxf pr Y = Ok s /\ is_prox (fun u => n_lmda q * gp u) Y s) ->
  length X = n -> gradlogpi f pr q X None = Ok gl ->
  (forall Y, length Y = n -> exists v, potential f gp (n_lmda q) Y v) /\
  (gl = vzero n <-> forall Y a b, length Y = n -> potential f gp (n_lmda q) X a -> potential f gp (n_lmda q) Y b -> a <= b).
Proof.
  intros f pr q n m lo hi gp X gl (EN & LM & HW & LD & _ & Lo & Hi & CB) Hl PM LX EG.
  destruct (linear_model_ops f n m LM) as (A & AP & _). destruct AP as (MF & _ & _).
  destruct (PM X LX) as (s & Es & Ps).
  assert (PX : forall Y, length Y = n -> exists s, is_prox (fun u => n_lmda q * gp u) Y s) by (intros Y LY; destruct (PM Y LY) as (t & _ & Pt); eauto).
  assert (EV : forall Y, length Y = n -> exists v, potential f gp (n_lmda q) Y v).
  { intros Y LY. destruct (MF Y LY) as (fy & Ey & _). destruct (PX Y LY) as (t & Pt). eexists. exists fy. eexists.
    split; [exact Ey|]. split; [exact (prox_envelope gp _ Hl Y t Pt)|reflexivity]. }
  split; [exact EV|].
  assert (Z0 : exists h : vec, length h = n) by eauto. destruct Z0 as (h0 & Lh0).
  destruct (gradg_expansion f n m X h0 LM HW LD LX Lh0) as (fx & fh0 & fxh0 & gr & B1 & _ & _ & Lfx & _ & _ & B7 & B8 & _).
  assert (Lp : length s = n) by (destruct Ps; congruence).
  assert (EGL := gradlogpi_value f pr q X fx s gr None Es ltac:(congruence) (or_introl (conj eq_refl B1)) B7 ltac:(congruence)).
  rewrite EG in EGL. injection EGL as EGL. unfold langevin_drift in EGL.
  assert (Ll : length gl = n).
  { rewrite EGL. rewrite vsub_length; rewrite vscal_length, vsub_length; congruence. }
  destruct (envelope_gradient_len gp (n_lmda q) n Hl PX X s LX Ps) as (_ & GR).
  (* the first-order expansion of the potential *)
  assert (EXP : forall h a b, length h = n -> potential f gp (n_lmda q) X a -> potential f gp (n_lmda q) (vadd X h) b ->
    0 <= b - a + Re (cdot gl h) <= (hi / 2 + / (2 * n_lmda q)) * nrm2 h).
  { intros h a b Lh (fx' & e & F1 & F2 & ->) (fy & e' & F3 & F4 & ->). rewrite B1 in F1. injection F1 as <-.
    destruct (gradg_expansion f n m X h LM HW LD LX Lh) as (fx' & fh & fxh & gr' & D1 & D2 & D3 & _ & _ & _ & D7 & D8 & D9).
    rewrite B1 in D1. injection D1 as <-. rewrite B7 in D7. injection D7 as <-. rewrite F3 in D3. injection D3 as <-.
    rewrite D9, !Re_plus, Re_RtoC. destruct (GR h e e' ltac:(congruence) F2 F4) as (G1 & G2).
    destruct (CB h fh Lh D2) as (C1 & C2).
    assert (R1 : Re (cdot gl h) = - Re (cdot (vscal (RtoC (/ n_lmda q)) (vsub X s)) h) - Re (cdot gr h)).
    { assert (LV : length (vscal (RtoC (- / n_lmda q)) (vsub X s)) = n) by (rewrite vscal_length, vsub_length; congruence).
      rewrite EGL, cdot_vsub_l by congruence.
      rewrite Re_minus, !Re_cdot_vscal_l. lra. }
    assert (N := nrm2_nonneg h). assert (0 <= lo * nrm2 h) by (apply Rmult_le_pos; auto). lra. }
  split.
  - intros Z Y a b LY Pa Pb.
    assert (LYX : length (vsub Y X) = n) by (rewrite vsub_length; congruence).
    assert (EY : vadd X (vsub Y X) = Y) by (apply vadd_vsub_cancel; congruence).
    rewrite <- EY in Pb. destruct (EXP _ a b LYX Pa Pb) as (H & _).
    assert (Z1 : Re (cdot gl (vsub Y X)) = 0).
    { rewrite Z. rewrite <- LYX. generalize (vsub Y X). clear. intros v. induction v as [|z v IH]; [reflexivity|].
      change (Re (Cconj (RtoC 0) * z + cdot (vzero (length v)) v)%C = 0). rewrite Re_plus, IH. unfold Re; cbn. ring. }
    lra.
  - intros MIN. destruct (EV X LX) as (a & Pa). set (c := hi / 2 + / (2 * n_lmda q)) in *.
    assert (I : 0 < / (2 * n_lmda q)) by (apply Rinv_0_lt_compat; lra). assert (Hc : 0 < c) by (unfold c; lra).
    set (t := / (2 * c)). assert (Ht : 0 < t) by (apply Rinv_0_lt_compat; lra).
    assert (Lh : length (vscal (RtoC t) gl) = n) by (rewrite vscal_length; auto).
    assert (LY : length (vadd X (vscal (RtoC t) gl)) = n) by (rewrite vadd_length; congruence).
    destruct (EV _ LY) as (b & Pb). assert (H1 := MIN _ a b LY Pa Pb). destruct (EXP _ a b Lh Pa Pb) as (_ & H2).
    rewrite Re_cdot_vscal_r, cdot_self, Re_RtoC, nrm2_vscal_R in H2.
    assert (H3 : c * (t ^ 2 * nrm2 gl) = t * nrm2 gl / 2) by (unfold t; field; lra). rewrite H3 in H2.
    assert (N := nrm2_nonneg gl). assert (H4 : nrm2 gl = 0) by nra.
    apply nrm2_zero_iff in H4. rewrite H4, Ll. reflexivity.
Qed.
Print Assumptions C56_drift_zero.

(** ** a case, and steps that are too large *)

(** identity operator, one datum 1 with weight [w] *)
Definition weighted_fwd (w : R) : forward_op :=
  mkFwd (mkData [RtoC 1] false) (scaled_identity 1 (RtoC w)) "analysis" None (Some id_meas) (Some 1%nat).

Lemma weighted_problem : forall w t r, 0 < w -> 0 <= t ->
  convex_problem (weighted_fwd w) (mkPrior r (fun X => soft X (TScal t))) 1 1 w w.
Proof.
  intros w t r Hw Ht. split; [reflexivity|]. split.
  { left. split; [reflexivity|]. exists id_meas. split; [reflexivity|]. split; [|split].
    - intros x H; eexists; split; [reflexivity|auto].
    - intros x H; eexists; split; [reflexivity|auto].
    - intros x y fx gy _ _ E F. simpl in E, F. congruence. }
  split. { split; [reflexivity|split; [reflexivity|]]. intros [|i] [|j] Hi Hj; try lia; simpl; cplx. }
  split; [reflexivity|]. split.
  { apply (C56_proximal _ 1 (wl1 (repeat t 1))). intros X LX. exists (map2 soft1 X (repeat t 1)). cbn [pr_proxf]. split.
    - apply soft_thresholds. rewrite LX. split; [apply repeat_length|reflexivity].
    - apply soft_is_prox; [rewrite repeat_length; auto|]. intros y Hy. apply repeat_spec in Hy. lra. }
  split; [lra|]. split; [lra|]. intros x fx Lx E. cbn in E. injection E as <-. destruct x as [|z [|]]; try discriminate.
  assert (Q : Re (quadform (fo_invcov (weighted_fwd w)) [z]) = w * nrm2 [z]).
  { unfold quadform, nrm2. cbn. destruct z as [a b]. rewrite Rmult_1_r. 
    assert (S := Cmod_sq (a, b)). cbn in S. rewrite Rmult_1_r in S. rewrite S. unfold Re. cbn. ring. }
  rewrite Q. lra.
Qed.

Lemma weighted_gradg : forall w a, fo_gradg (weighted_fwd w) [a] = Ok [(RtoC w * (a - RtoC 1))%C].
Proof. intros w a. cbn. do 2 f_equal. ring. Qed.

(** X = 4 and Y = 0, weight 1, lmda = 1/2, delta = 1/2, threshold 1/4: the
    distance 4 becomes 7/4, and 49/16 <= 3/4 * 16 *)
Example C56_case : forall G (R0 : rng G) g, good_rng R0 ->
  let f := weighted_fwd 1 in let pr := mkPrior (fun _ => Ok 0) (fun X => soft X (TScal (1 / 4))) in
  let q := mkNum (1 / 2) 1 1 false in
  convex_problem f pr 1 1 1 1 /\ 1 / 2 * (/ n_lmda q + 1) <= 2 /\ rate (n_lmda q) (1 / 2) 1 1 = 3 / 4 /\
  exists X' Y' g', chain_step R0 f q (1 / 2) [RtoC 4] [RtoC (15 / 4)] [RtoC 3] g = (Ok X', g') /\
    chain_step R0 f q (1 / 2) [RtoC 0] [RtoC 0] [RtoC (-1)] g = (Ok Y', g') /\
    fo_gradg f [RtoC 4] = Ok [RtoC 3] /\ fo_gradg f [RtoC 0] = Ok [RtoC (-1)] /\
    pr_proxf pr [RtoC 4] = Ok [RtoC (15 / 4)] /\ pr_proxf pr [RtoC 0] = Ok [RtoC 0] /\
    vsub X' Y' = [RtoC (7 / 4)].
Proof.
  intros G R0 g GR f pr q. split; [apply weighted_problem; lra|].
  split; [cbn; lra|]. split; [unfold rate; cbn; lra|].
  assert (E1 : pr_proxf pr [RtoC 4] = Ok [RtoC (15 / 4)]).
  { unfold pr; cbn [pr_proxf]. rewrite soft_scal. cbn [map]. rewrite soft1_big by lra. do 3 f_equal. lra. }
  assert (E2 : pr_proxf pr [RtoC 0] = Ok [RtoC 0]).
  { unfold pr; cbn [pr_proxf]. rewrite soft_scal. cbn [map]. unfold soft1. rewrite Cmod_0. destruct (Rle_dec 0 (1 / 4)); [reflexivity|lra]. }
  assert (F1 : fo_gradg f [RtoC 4] = Ok [RtoC 3]) by (cbn; do 2 f_equal; cplx).
  assert (F2 : fo_gradg f [RtoC 0] = Ok [RtoC (-1)]) by (cbn; do 2 f_equal; cplx).
  assert (NZ : n_lmda q <> 0) by (cbn; lra).
  destruct (C12_step G R0 f pr q (1 / 2) [RtoC 4] [RtoC 4] [RtoC (15 / 4)] [RtoC 3] g 1 GR eq_refl NZ eq_refl eq_refl E1 F1 eq_refl eq_refl)
    as (gl1 & _ & _ & -> & S1).
  destruct (C12_step G R0 f pr q (1 / 2) [RtoC 0] [RtoC 0] [RtoC 0] [RtoC (-1)] g 1 GR eq_refl NZ eq_refl eq_refl E2 F2 eq_refl eq_refl)
    as (gl2 & _ & _ & -> & S2).
  assert (LW : length (fst (noise R0 (n_complex q) 1 g)) = 1%nat) by (cbn; rewrite map_length; apply GR).
  destruct (noise R0 (n_complex q) 1 g) as (w & g'). cbn [fst] in LW.
  eexists. eexists. exists g'. split; [exact S1|]. split; [exact S2|]. split; [exact F1|]. split; [exact F2|]. split; [exact E1|]. split; [exact E2|].
  rewrite step_difference by (cbn; auto). cbn. f_equal. apply C_ext; cbn; field.
Qed.

Lemma soft_zero : forall X, soft X (TScal 0) = Ok X.
Proof.
  intros X. rewrite soft_scal. f_equal. induction X as [|z X IH]; [reflexivity|]. cbn [map]. rewrite IH. f_equal.
  unfold soft1. assert (H := Cmod_ge_0 z). destruct (Rle_dec (Cmod z) 0).
  - symmetry. apply Cmod_eq_0. lra.
  - destruct (Req_EM_T (Cmod z) 0); [lra|]. replace ((Cmod z - 0) / Cmod z) with 1 by (field; lra). ring.
Qed.

(** With the default lmda and delta of PxMCMCParams and a datum known to 1e-3
    the distance of two chains is multiplied by 9 in every step. *)
Theorem C56_default_step_refuted : exists f pr q n m lo hi,
  convex_problem f pr n m lo hi /\ n_lmda q = 3 / 10 ^ 5 /\ in_band (n_lmda q) (1 / 10 ^ 5) /\
  forall G (R0 : rng G) tr1 tr2 X Y dX dY g, good_rng R0 -> length X = n -> length Y = n -> fo_forward f X = Ok dX -> fo_forward f Y = Ok dY ->
    path (myula_trans (mcmc_ops R0 f pr q) (1 / 10 ^ 5)) (X, dX, g) tr1 ->
    path (myula_trans (mcmc_ops R0 f pr q) (1 / 10 ^ 5)) (Y, dY, g) tr2 ->
    forall k X' d1 g1 Y' d2 g2, nth_error tr1 k = Some (X', d1, g1) -> nth_error tr2 k = Some (Y', d2, g2) ->
      nrm2 (vsub X' Y') = 81 ^ (k + 1) * nrm2 (vsub X Y).
Proof.
  exists (weighted_fwd (10 ^ 6)), (mkPrior (fun _ => Ok 0) (fun X => soft X (TScal 0))), (mkNum (3 / 10 ^ 5) 1 10 false), 1%nat, 1%nat, (10 ^ 6), (10 ^ 6).
  split; [apply weighted_problem; lra|]. split; [reflexivity|]. split; [unfold in_band; cbn [n_lmda]; lra|].
  intros G R0. set (f := weighted_fwd (10 ^ 6)). set (pr := mkPrior _ _). set (q := mkNum _ _ _ _).
  induction tr1 as [|s1 tr1 IH]; intros tr2 X Y dX dY g GR LX LY EX EY P1 P2 k X' d1 g1 Y' d2 g2 N1 N2; [destruct k; discriminate|].
  destruct tr2 as [|s2 tr2]; [destruct k; discriminate|].
  destruct (path_inv _ _ _ _ P1) as (T1 & Q1). destruct (path_inv _ _ _ _ P2) as (T2 & Q2).
  destruct s1 as ((x1 & e1) & h1). destruct s2 as ((x2 & e2) & h2).
  destruct T1 as (gr1 & p1 & A1 & B1 & S1 & F1). destruct T2 as (gr2 & p2 & A2 & B2 & S2 & F2).
  cbn [mcmc_ops o_gradg o_proxf o_step o_forward] in *.
  assert (B1' := B1). assert (B2' := B2). unfold pr in B1', B2'. cbn [pr_proxf] in B1', B2'. rewrite soft_zero in B1', B2'.
  injection B1' as <-. injection B2' as <-.
  assert (EX' := EX). assert (EY' := EY). cbn in EX', EY'. injection EX' as <-. injection EY' as <-.
  assert (NZ : n_lmda q <> 0) by (cbn [q n_lmda]; lra).
  destruct X as [|a [|]]; try discriminate. destruct Y as [|b [|]]; try discriminate.
  assert (V1 : gr1 = [(RtoC (10 ^ 6) * (a - RtoC 1))%C]).
  { unfold f in A1. rewrite weighted_gradg in A1. congruence. }
  assert (V2 : gr2 = [(RtoC (10 ^ 6) * (b - RtoC 1))%C]).
  { unfold f in A2. rewrite weighted_gradg in A2. congruence. }
  destruct (C12_step G R0 f pr q (1 / 10 ^ 5) [a] [a] [a] gr1 g 1 GR eq_refl NZ eq_refl EX B1 A1 eq_refl ltac:(subst gr1; reflexivity))
    as (gl1 & _ & _ & G1 & E1).
  destruct (C12_step G R0 f pr q (1 / 10 ^ 5) [b] [b] [b] gr2 g 1 GR eq_refl NZ eq_refl EY B2 A2 eq_refl ltac:(subst gr2; reflexivity))
    as (gl2 & _ & _ & G2 & E2).
  assert (LW : length (fst (noise R0 (n_complex q) 1 g)) = 1%nat) by (cbn; rewrite map_length; apply GR).
  rewrite S1 in E1. rewrite S2 in E2. destruct (noise R0 (n_complex q) 1 g) as (w & g'). cbn [fst] in LW.
  injection E1 as -> ->. injection E2 as -> ->. subst gl1 gl2.
  match goal with |- _ => match type of F1 with fo_forward f ?x = _ => set (x1 := x) in * end end.
  match goal with |- _ => match type of F2 with fo_forward f ?x = _ => set (x2 := x) in * end end.
  assert (D : nrm2 (vsub x1 x2) = 81 * nrm2 (vsub [a] [b])).
  { unfold x1, x2. rewrite step_difference by (subst gr1 gr2; cbn; auto). subst gr1 gr2. unfold nrm2, vsub, vadd, vscal, rsum. cbn [map2 map fold_right].
    match goal with |- Cmod ?z ^ 2 + 0 = _ => replace z with (RtoC (-9) * (a - b))%C end.
    - rewrite Cmod_mult, Cmod_R, Rpow_mult_distr, pow2_abs. lra.
    - destruct a, b. unfold q; cbn [n_lmda]. apply C_ext; unfold Cminus, Cplus, Copp, Cmult, RtoC; cbn [fst snd]; field. }
  assert (Lx1 : length x1 = 1%nat).
  { unfold x1. subst gr1. destruct w as [|w0 [|]]; try discriminate LW. reflexivity. }
  assert (Lx2 : length x2 = 1%nat).
  { unfold x2. subst gr2. destruct w as [|w0 [|]]; try discriminate LW. reflexivity. }
  clearbody x1 x2. destruct k as [|k].
  - cbn in N1, N2. injection N1 as <- <- <-. injection N2 as <- <- <-. rewrite D. cbn. ring.
  - assert (H := IH tr2 x1 x2 e1 e2 g' GR Lx1 Lx2 F1 F2 Q1 Q2 k X' d1 g1 Y' d2 g2 N1 N2). rewrite H, D. cbn [Nat.add pow]. ring.
Qed.
Print Assumptions C56_default_step_refuted.
