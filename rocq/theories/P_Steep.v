(** C76: PxMALA stops moving where the gradient is large. *)
From Coq Require Import List ZArith Lia Bool Reals Lra Psatz String.
From Coquelicot Require Import Coquelicot.
From Verif Require Import PyBase PyBaseFacts CVec Thresh ThreshSpec ThreshProof OpSpec Utils UtilsSpec UtilsProof Prior PriorSpec PriorProof Forward
  McmcSpec FwdProof Sampler SamplerSpec SamplerFacts SamplerMain Mcmc McmcProof MeasProof StepProof SkProof P_Samplers P_Mcmc P_Works StableProof P_Stable
  MomentSpec MomentProof P_Moments SkDivProof P_SkDiv FarSpec P_Far SteepSpec.
Import ListNotations.
Notation length := List.length.
Open Scope R_scope.

Lemma size_nm : forall x, size x = nm x.
Proof. reflexivity. Qed.

(** the sum of squares of a real array *)
Lemma real_squares : forall r, real_vec r -> csum (map (fun z => z * z)%C r) = RtoC (nrm2 r).
Proof.
  induction r as [|z r IH]; intros H; [reflexivity|]. unfold csum, nrm2, rsum in *. cbn [map fold_right].
  rewrite IH by (intros y Hy; apply H; right; exact Hy). rewrite Cmod_sq.
  assert (Z := H z (or_introl eq_refl)). destruct z as [a b]. cbn in Z. subst b. apply C_ext; cbn; ring.
Qed.

(** the penalised misfit cannot fall faster than its gradient allows *)
Lemma target_slope : forall f pr q n m lo hi B P x y lx ly dx dy l2 p2 l2' p2', convex_problem f pr n m lo hi -> tame pr n B P ->
  0 < n_lmda q -> 0 <= B -> 0 <= P -> length x = n -> length y = n ->
  fo_forward f x = Ok dx -> fo_forward f y = Ok dy ->
  logpi f pr q x dx = Ok (lx, l2, p2) -> logpi f pr q y dy = Ok (ly, l2', p2') ->
  Re ly - Re lx <= (Rabs (n_mu q) * P + 2 * B / n_lmda q + 2 * nm (drift f pr q x)) * nm (vsub y x).
Proof.
  intros f pr q n m lo hi B P x y lx ly dx dy l2 p2 l2' p2' CP (T1 & T2) Hl HB HP Lx Ly Edx Edy El El'.
  destruct (problem_parts f pr q n m lo hi x CP Lx) as (d & gr & p & A1 & A2 & A3 & A4 & A5 & _ & A7 & A8).
  destruct CP as (EN & LM & HW & LD & _ & Lo & Hi & CB).
  set (h := vsub y x). assert (Lh : length h = n) by (unfold h; rewrite vsub_length; congruence).
  assert (YE : vadd x h = y).
  { unfold h. rewrite <- (vsub_back y x) at 2 by congruence. unfold vadd. clear. generalize (vsub y x). intros v. revert v.
    induction x as [|a x IH]; intros [|b v]; cbn; try reflexivity. f_equal; [ring|apply IH]. }
  destruct (gradg_expansion f n m x h LM HW LD Lx Lh) as (fx & fh & fy & g & F1 & F2 & F3 & L1 & L2 & L3 & F4 & L4 & Q).
  rewrite YE in F3. rewrite F1 in A1. apply Ok_inj in A1. subst d. rewrite F4 in A2. apply Ok_inj in A2. subst gr.
  rewrite F1 in Edx. apply Ok_inj in Edx. subst dx. rewrite F3 in Edy. apply Ok_inj in Edy. subst dy.
  destruct HW as (W1 & W2 & _).
  rewrite (logpi_value f pr q x fx m) in El by auto. rewrite (logpi_value f pr q y fy m) in El' by auto.
  destruct (pr_prior pr x) as [a|] eqn:Ea; [|discriminate]. destruct (pr_prior pr y) as [b|] eqn:Eb; [|discriminate].
  cbn [rbind] in El, El'. cbv zeta in El, El'. injection El as E _ _. injection El' as E' _ _. subst lx ly.
  rewrite Q. destruct (CB h fh Lh F2) as (C1 & _).
  assert (N0 := nrm2_nonneg h). assert (C2 : 0 <= Re (quadform (fo_invcov f) fh)) by (apply Rle_trans with (lo * nrm2 h); [apply Rmult_le_pos; auto|auto]).
  assert (S1 := T2 y x b a Ly Lx Eb Ea). rewrite size_nm in S1. fold (vsub y x) in S1. fold h in S1.
  assert (Bx := T1 x p Lx A3). rewrite size_nm in Bx. fold (vsub x p) in Bx.
  (* the gradient of the data term *)
  assert (GB : nm g <= nm (drift f pr q x) + B / n_lmda q).
  { assert (GE : g = vsub (vscal (RtoC (- / n_lmda q)) (vsub x p)) (drift f pr q x)).
    { rewrite A8. unfold langevin_drift. clear - Lx A5 L4. revert x p g Lx A5 L4. unfold vsub, vscal.
      induction n as [|k IH]; intros [|a x] [|b p] [|c g] H1 H2 H3; cbn in *; try lia; [reflexivity|].
      f_equal; [ring|apply IH; lia]. }
    assert (K := nm_vsub (vscal (RtoC (- / n_lmda q)) (vsub x p)) (drift f pr q x) ltac:(rewrite vscal_length, vsub_length; congruence)).
    rewrite <- GE in K. rewrite nm_vscal, Rabs_Ropp in K. assert (I0 := Rinv_0_lt_compat _ Hl). rewrite Rabs_pos_eq in K by lra.
    assert (/ n_lmda q * nm (vsub x p) <= B / n_lmda q) by (unfold Rdiv; rewrite (Rmult_comm B); apply Rmult_le_compat_l; lra). lra. }
  assert (CS : - Re (cdot g h) <= nm g * nm h).
  { assert (K := cauchy (vscal (RtoC (-1)) g) h ltac:(rewrite vscal_length; congruence)). rewrite nm_vscal, Rabs_left in K by lra.
    replace (Re (cdot (vscal (RtoC (-1)) g) h)) with (- Re (cdot g h)) in K.
    - lra.
    - rewrite (Re_cdot_sym (vscal _ g) h), Re_cdot_vscal_r, (Re_cdot_sym g h). ring. }
  assert (H0 := nm_nonneg h). assert (G0 := nm_nonneg (drift f pr q x)).
  assert (M1 : - (n_mu q * (b - a)) <= Rabs (n_mu q) * (P * nm h)).
  { apply Rle_trans with (Rabs (n_mu q) * Rabs (b - a)).
    - rewrite <- Rabs_mult. rewrite <- Rabs_Ropp. apply Rle_abs.
    - apply Rmult_le_compat_l; [apply Rabs_pos|exact S1]. }
  assert (M2 : nm g * nm h <= (nm (drift f pr q x) + B / n_lmda q) * nm h) by (apply Rmult_le_compat_r; auto).
  unfold Rdiv in *. cbn. cbn in C2. unfold Re in *. nra.
Qed.

(** fourth powers *)
Lemma fourth_gap : forall a b d, 0 <= a -> 0 <= d -> a + d <= b -> d ^ 4 <= b ^ 4 - a ^ 4.
Proof.
  intros a b d Ha Hd H. assert (K : (a + d) ^ 4 <= b ^ 4) by (apply pow_incr; lra).
  assert (P1 : 0 <= a * d) by (apply Rmult_le_pos; auto). assert (P2 : 0 <= a ^ 2 * (a * d)) by (apply Rmult_le_pos; [apply pow2_ge_0|auto]).
  assert (P3 : 0 <= d ^ 2 * (a * d)) by (apply Rmult_le_pos; [apply pow2_ge_0|auto]). assert (P4 := pow2_ge_0 (a * d)). nra.
Qed.

(** the residuals of the two transition terms *)
Lemma proposal_there : forall n delta x g e, length x = n -> length g = n -> length e = n ->
  vsub (vadd (vadd x (vscal (RtoC delta) g)) e) x = vadd (vscal (RtoC delta) g) e.
Proof.
  intros n delta. unfold vsub, vadd, vscal.
  induction n as [|k IH]; intros [|u x] [|v g] [|w e] H1 H2 H3; cbn in *; try lia; [reflexivity|]. f_equal; [ring|apply IH; lia].
Qed.
Lemma proposal_half : forall n delta g e, length g = n -> length e = n ->
  vsub (vadd (vscal (RtoC delta) g) e) (vscal (RtoC (delta / 2)) g) = vadd (vscal (RtoC (delta / 2)) g) e.
Proof.
  intros n delta. unfold vsub, vadd, vscal.
  induction n as [|k IH]; intros [|v g] [|w e] H2 H3; cbn in *; try lia; [reflexivity|].
  f_equal; [apply C_ext; cbn; field|apply IH; lia].
Qed.
Lemma proposal_back : forall n delta x g e g', length x = n -> length g = n -> length e = n -> length g' = n ->
  vsub (vsub x (vadd (vadd x (vscal (RtoC delta) g)) e)) (vscal (RtoC (delta / 2)) g') =
  vscal (RtoC (-1)) (vadd (vscal (RtoC (3 * delta / 2)) g) (vadd e (vscal (RtoC (delta / 2)) (vsub g' g)))).
Proof.
  intros n delta. unfold vsub, vadd, vscal.
  induction n as [|k IH]; intros [|u x] [|v g] [|w e] [|z g'] H1 H2 H3 H4; cbn in *; try lia; [reflexivity|].
  f_equal; [apply C_ext; cbn; field|apply IH; lia].
Qed.

(** ** one iteration *)
(** a proposal y = x + delta G(x) + noise, with noise of length at most nu *)
Lemma ratio_small : forall G (R0 : rng G) f pr q n m lo hi B P delta x e nu a, convex_problem f pr n m lo hi -> tame pr n B P ->
  real_drift f pr q n -> 0 < n_lmda q -> 0 <= B -> 0 <= P -> 0 < delta -> 0 < margin (n_lmda q) hi delta ->
  length x = n -> length e = n -> real_vec x -> real_vec e -> nm e <= nu ->
  let gamma := nm (drift f pr q x) in let t := delta * margin (n_lmda q) hi delta in
  let y := vadd (vadd x (vscal (RtoC delta) (drift f pr q x))) e in
  1 <= gamma -> 6 * nu <= t * gamma -> 256 * (Rabs (n_mu q) * P + 2 * B / n_lmda q + 2) <= t ^ 4 * gamma ^ 2 ->
  mh_logalpha (mcmc_ops R0 f pr q) delta x y a -> Re a <= - (delta * t ^ 4 * gamma ^ 4 / 64).
Proof.
  intros G R0 f pr q n m lo hi B P delta x e nu a CP TM RD Hl HB HP Hd Hm Lx Le Rx Re' He gamma t y Hg H6 HM
    (dx & gx & px & lx & dy & gy & py & ly & qxy & qyx & E1 & E2 & E3 & E4 & E5 & E6 & E7 & E8 & E9 & E10 & ->).
  cbn [mcmc_ops o_forward o_gradg o_proxf o_logpi o_logtrans o_ksub o_kadd] in *.
  destruct (problem_parts f pr q n m lo hi x CP Lx) as (d & gr & p & A1 & A2 & A3 & A4 & A5 & A6 & A7 & A8).
  assert (Ls : length (vscal (RtoC delta) (drift f pr q x)) = n) by (rewrite vscal_length; exact A7).
  assert (Lxs : length (vadd x (vscal (RtoC delta) (drift f pr q x))) = n) by (rewrite vadd_length; congruence).
  assert (Ly : length y = n) by (unfold y; rewrite vadd_length; congruence).
  destruct (problem_parts f pr q n m lo hi y CP Ly) as (d' & gr' & p' & B1 & B2 & B3 & B4 & B5 & B6 & B7 & B8).
  rewrite A1 in E1. apply Ok_inj in E1. subst d. rewrite B1 in E5. apply Ok_inj in E5. subst d'.
  rewrite A2 in E2. apply Ok_inj in E2. subst gr. rewrite B2 in E6. apply Ok_inj in E6. subst gr'.
  rewrite A3 in E3. apply Ok_inj in E3. subst p. rewrite B3 in E7. apply Ok_inj in E7. subst p'.
  assert (Rg : real_vec (drift f pr q x)) by (apply (RD x); auto).
  assert (Ry : real_vec y) by (unfold y; apply real_vadd; [apply real_vadd; [auto|apply real_vscal; auto]|auto]).
  assert (Rgy : real_vec (drift f pr q y)) by (apply (RD y); auto).
  rewrite C13_logtransition_value in E9 by congruence. rewrite C13_logtransition_value in E10 by congruence.
  cbv zeta in E9, E10. apply Ok_inj in E9, E10.
  fold (langevin_drift (n_lmda q) x px gx) in E9. fold (langevin_drift (n_lmda q) y py gy) in E10. rewrite <- A8 in E9. rewrite <- B8 in E10.
  destruct lx as [[lx l2] p2]. destruct ly as [[ly l2'] p2'].
  assert (SL := target_slope f pr q n m lo hi B P x y lx ly dx dy l2 p2 l2' p2' CP TM Hl HB HP Lx Ly A1 B1 E4 E8). fold gamma in SL.
  set (g := drift f pr q x) in *. set (g' := drift f pr q y) in *.
  rewrite real_squares in E9 by (apply real_vsub; [apply real_vsub; auto|apply real_vscal; auto]).
  rewrite real_squares in E10 by (apply real_vsub; [apply real_vsub; auto|apply real_vscal; auto]).
  rewrite <- nm_sq in E9, E10.
  assert (LIP := drift_lipschitz f pr q n m lo hi y x CP Hl Ly Lx). fold g g' in LIP.
  assert (YX : vsub y x = vadd (vscal (RtoC delta) g) e) by (apply (proposal_there n); auto).
  assert (F1 : vsub (vsub y x) (vscal (RtoC (delta / 2)) g) = vadd (vscal (RtoC (delta / 2)) g) e) by (rewrite YX; apply (proposal_half n); auto).
  assert (F2 : vsub (vsub x y) (vscal (RtoC (delta / 2)) g') =
     vscal (RtoC (-1)) (vadd (vscal (RtoC (3 * delta / 2)) g) (vadd e (vscal (RtoC (delta / 2)) (vsub g' g))))) by (apply (proposal_back n); auto).
  rewrite F1 in E9. rewrite F2 in E10. rewrite nm_vscal, (Rabs_left (-1)) in E10 by lra.
  replace (- (-1)) with 1 in E10 by ring. rewrite Rmult_1_l in E10.
  assert (LV : length (vsub g' g) = n) by (rewrite vsub_length; congruence).
  assert (LW : length (vscal (RtoC (delta / 2)) (vsub g' g)) = n) by (rewrite vscal_length; auto).
  assert (N1 := nm_vadd (vscal (RtoC (delta / 2)) g) e ltac:(rewrite vscal_length; congruence)).
  assert (N2 := nm_vadd_lower (vscal (RtoC (3 * delta / 2)) g) (vadd e (vscal (RtoC (delta / 2)) (vsub g' g)))
    ltac:(rewrite vscal_length, vadd_length; congruence)).
  assert (N3 := nm_vadd e (vscal (RtoC (delta / 2)) (vsub g' g)) ltac:(congruence)).
  assert (N4 := nm_vadd (vscal (RtoC delta) g) e ltac:(congruence)). rewrite <- YX in N4.
  rewrite nm_vscal, Rabs_pos_eq in N1, N2, N3, N4 by lra. fold gamma in N1, N2, N4.
  set (ra := nm (vadd (vscal (RtoC (delta / 2)) g) e)) in *.
  set (rb := nm (vadd (vscal (RtoC (3 * delta / 2)) g) (vadd e (vscal (RtoC (delta / 2)) (vsub g' g))))) in *.
  set (h := nm (vsub y x)) in *. set (L := / n_lmda q + hi) in *.
  assert (I0 := Rinv_0_lt_compat _ Hl). assert (Hhi : 0 < hi) by (destruct CP as (_ & _ & _ & _ & _ & _ & Hi & _); exact Hi).
  assert (L0 : 0 < L) by (unfold L; lra). assert (s0 : 0 < delta * L) by (apply Rmult_lt_0_compat; auto).
  unfold margin in *. fold L in Hm, t. set (th := 1 - delta * L / 2) in *.
  assert (Th1 : th <= 1) by (unfold th; lra).
  assert (DG : 0 < delta * gamma) by (apply Rmult_lt_0_compat; lra). assert (NE := nm_nonneg e).
  assert (HN : 0 <= h) by apply nm_nonneg. assert (RA0 : 0 <= ra) by apply nm_nonneg.
  assert (TG : 0 < t * gamma) by (unfold t; apply Rmult_lt_0_compat; [apply Rmult_lt_0_compat; auto|lra]).
  assert (TG1 : t * gamma <= delta * gamma) by (unfold t; apply Rmult_le_compat_r; [lra|]; nra).
  assert (GAP : ra + t * gamma / 2 <= rb).
  { assert (K1 : delta / 2 * nm (vsub g' g) <= delta / 2 * (L * (delta * gamma + nu))).
    { apply Rmult_le_compat_l; [lra|]. eapply Rle_trans; [exact LIP|]. apply Rmult_le_compat_l; lra. }
    assert (K2 : delta / 2 * (L * (delta * gamma + nu)) = (1 - th) * (delta * gamma) + (1 - th) * nu) by (unfold th; field).
    assert (K3 : (1 - th) * nu <= nu) by nra.
    assert (K4 : (1 - th) * (delta * gamma) = delta * gamma - t * gamma) by (unfold t; ring). lra. }
  assert (F4 := fourth_gap ra rb (t * gamma / 2) RA0 ltac:(lra) GAP).
  set (M := Rabs (n_mu q) * P + 2 * B / n_lmda q + 2) in *.
  assert (M0 : 0 <= Rabs (n_mu q) * P + 2 * B / n_lmda q).
  { apply Rplus_le_le_0_compat; [apply Rmult_le_pos; [apply Rabs_pos|auto]|]. unfold Rdiv. apply Rmult_le_pos; lra. }
  assert (S1 : Re ly - Re lx <= M * gamma * (2 * (delta * gamma))).
  { eapply Rle_trans; [exact SL|]. apply Rmult_le_compat; try lra.
    unfold M. clear - M0 Hg. set (c := Rabs (n_mu q) * P + 2 * B / n_lmda q) in *. nra. }
  assert (S2 : M * gamma * (2 * (delta * gamma)) <= delta * t ^ 4 * gamma ^ 4 / 64).
  { assert (Q : M * (gamma ^ 2 * delta) * 256 <= t ^ 4 * gamma ^ 2 * (gamma ^ 2 * delta)).
    { assert (0 <= gamma ^ 2 * delta) by (apply Rmult_le_pos; [apply pow2_ge_0|lra]). nra. }
    assert (Q0 : 0 <= M * (gamma ^ 2 * delta)) by (apply Rmult_le_pos; [unfold M; lra|apply Rmult_le_pos; [apply pow2_ge_0|lra]]).
    replace (M * gamma * (2 * (delta * gamma))) with (2 * (M * (gamma ^ 2 * delta))) by ring.
    replace (delta * t ^ 4 * gamma ^ 4 / 64) with (t ^ 4 * gamma ^ 2 * (gamma ^ 2 * delta) / 64) by field. lra. }
  assert (EQ : forall u, Re (RtoC (- delta / 2) * (RtoC (u ^ 2) * RtoC (u ^ 2)))%C = - delta / 2 * u ^ 4) by (intros; cbn; ring).
  cbn [fst]. rewrite <- E9, <- E10.
  assert (EA : forall a b c d : C, Re (a + b - c - d)%C = Re a + Re b - Re c - Re d) by (intros [? ?] [? ?] [? ?] [? ?]; unfold Re; cbn; ring).
  rewrite EA, !EQ.
  assert (F5 : delta / 2 * (t * gamma / 2) ^ 4 <= delta / 2 * (rb ^ 4 - ra ^ 4)) by (apply Rmult_le_compat_l; lra).
  replace (delta / 2 * (t * gamma / 2) ^ 4) with (delta * t ^ 4 * gamma ^ 4 / 32) in F5 by field.
  lra.
Qed.

(** the log ratio of a proposal x + delta grad log pi(x) + e *)
Theorem C76_ratio : forall G (R0 : rng G) f pr q n m lo hi B P delta x gr e a, convex_problem f pr n m lo hi -> tame pr n B P ->
  real_drift f pr q n -> 0 < n_lmda q -> 0 <= B -> 0 <= P -> 0 < delta -> 0 < margin (n_lmda q) hi delta ->
  length x = n -> length e = n -> reals x -> reals e -> gradlogpi f pr q x None = Ok gr ->
  let t := delta * margin (n_lmda q) hi delta in
  1 <= size gr -> 6 * size e <= t * size gr -> 256 * (Rabs (n_mu q) * P + 2 * B / n_lmda q + 2) <= t ^ 4 * size gr ^ 2 ->
  mh_logalpha (mcmc_ops R0 f pr q) delta x (map2 Cplus (map2 Cplus x (map (Cmult (RtoC delta)) gr)) e) a ->
  Re a <= - (delta * t ^ 4 * size gr ^ 4 / 64).
Proof.
  intros G R0 f pr q n m lo hi B P delta x gr e a CP TM RD Hl HB HP Hd Hm Lx Le Rx Ree EG t H1 H6 HM LA.
  destruct (problem_parts f pr q n m lo hi x CP Lx) as (d & gr' & p & _ & _ & _ & _ & _ & A6 & _).
  rewrite A6 in EG. apply Ok_inj in EG. subst gr.
  exact (ratio_small G R0 f pr q n m lo hi B P delta x e _ a CP TM RD Hl HB HP Hd Hm Lx Le Rx Ree (Rle_refl _) H1 H6 HM LA).
Qed.
Print Assumptions C76_ratio.

Lemma steep_rejected : forall G (R0 : rng G) f pr q n m lo hi B P delta k u x gr g acc x' d' g' i,
  good_rng R0 -> convex_problem f pr n m lo hi -> tame pr n B P -> real_drift f pr q n -> n_complex q = false -> 0 < n_lmda q ->
  0 <= B -> 0 <= P -> 0 < delta -> 0 < margin (n_lmda q) hi delta -> 0 < u ->
  (forall g, size (map RtoC (fst (g_randn R0 n g))) <= k) -> (forall g, u <= fst (g_rand R0 g)) ->
  length x = n -> reals x -> gradlogpi f pr q x None = Ok gr -> too_steep (n_lmda q) (n_mu q) hi B P delta k u (size gr) ->
  mh_trans (mcmc_ops R0 f pr q) false i (x, delta, g) acc (x', d', g') -> acc = false /\ x' = x /\ d' = delta.
Proof.
  intros G R0 f pr q n m lo hi B P delta k u x gr g acc x' d' g' i GR CP TM RD NC Hl HB HP Hd Hm Hu BN BU Lx Rx EG TS
    (y & g1 & lu & a & (dx & gx & px & E1 & E2 & E3 & E4) & LA & LR & -> & -> & ->).
  cbn [mcmc_ops o_forward o_gradg o_proxf o_step o_logrand o_kltb] in *.
  destruct (problem_parts f pr q n m lo hi x CP Lx) as (d & gr' & p & A1 & A2 & A3 & A4 & A5 & A6 & A7 & A8).
  rewrite A6 in EG. apply Ok_inj in EG. subst gr.
  rewrite A1 in E1. apply Ok_inj in E1. subst d. rewrite A2 in E2. apply Ok_inj in E2. subst gr'.
  rewrite A3 in E3. apply Ok_inj in E3. subst p.
  assert (EN : fo_nparams f = Some n) by apply CP.
  rewrite (chain_step_value R0 f q delta x px gx g n EN ltac:(lra) GR Lx A5 A4) in E4. rewrite <- A8, NC in E4. unfold Mcmc.draw in E4.
  assert (Lz := proj1 (GR n g)). assert (Bz := BN g). destruct (g_randn R0 n g) as [z g0]. cbn [fst] in Lz, Bz. injection E4 as E4 <-.
  set (e := vscal (RtoC (sqrt (2 * delta))) (map RtoC z)) in *.
  assert (Le : length e = n) by (unfold e; rewrite vscal_length, map_length; exact Lz).
  assert (Ree : real_vec e).
  { unfold e. apply real_vscal. intros c Hc. apply in_map_iff in Hc. destruct Hc as (r & <- & _). reflexivity. }
  assert (S0 := sqrt_pos (2 * delta)).
  assert (Ne : nm e <= sqrt (2 * delta) * k).
  { unfold e. rewrite nm_vscal, Rabs_pos_eq by auto. apply Rmult_le_compat_l; auto. }
  destruct TS as (T1 & T2 & T3 & T4). rewrite size_nm in T1, T2, T3, T4. subst y.
  assert (K := ratio_small G R0 f pr q n m lo hi B P delta x e _ a CP TM RD Hl HB HP Hd Hm Lx Le Rx Ree Ne T1 ltac:(lra) T3 LA).
  unfold logrand in LR. destruct (g_rand R0 g0) as [v g2] eqn:Ev. injection LR as <- <-.
  assert (V : u <= v) by (specialize (BU g0); rewrite Ev in BU; exact BU).
  assert (LV : ln u <= ln v) by (destruct V as [V | ->]; [left; apply ln_increasing; lra|lra]).
  enough (KK : clex_ltb (RtoC (ln v)) a = false) by (rewrite KK; auto).
  destruct (clex_ltb _ _) eqn:EB; [|reflexivity]. apply clex_ltb_spec in EB. unfold clex_lt in EB. cbn in EB. unfold Re in *. lra.
Qed.

Lemma steep_path : forall G (R0 : rng G) f pr q n m lo hi B P delta k u x gr,
  good_rng R0 -> convex_problem f pr n m lo hi -> tame pr n B P -> real_drift f pr q n -> n_complex q = false -> 0 < n_lmda q ->
  0 <= B -> 0 <= P -> 0 < delta -> 0 < margin (n_lmda q) hi delta -> 0 < u ->
  (forall g, size (map RtoC (fst (g_randn R0 n g))) <= k) -> (forall g, u <= fst (g_rand R0 g)) ->
  length x = n -> reals x -> gradlogpi f pr q x None = Ok gr -> too_steep (n_lmda q) (n_mu q) hi B P delta k u (size gr) ->
  forall tr i g, mh_path (mcmc_ops R0 f pr q) false i (x, delta, g) tr ->
  map (fun p => b2z (fst p)) tr = repeat 0%Z (length tr) /\ forall j s, nth_error tr j <> Some (true, s).
Proof.
  intros G R0 f pr q n m lo hi B P delta k u x gr GR CP TM RD NC Hl HB HP Hd Hm Hu BN BU Lx Rx EG TS.
  induction tr as [|[acc [[x' d'] g']] tr IH]; intros i g PA; [split; [reflexivity|intros [|j] s; discriminate]|].
  inversion PA as [|? ? ? ? ? T PA']; subst.
  destruct (steep_rejected G R0 f pr q _ m lo hi B P delta k u x gr g acc x' d' g' i GR CP TM RD NC Hl HB HP Hd Hm Hu BN BU eq_refl Rx EG TS T) as (-> & -> & ->).
  destruct (IH _ _ PA') as (I1 & I2). split; [cbn; rewrite I1; reflexivity|]. intros [|j] s; [discriminate|apply I2].
Qed.

(** runs with a fixed step size that start where the gradient is too large
    never accept a proposal *)
Theorem C76_locked : forall G (R0 : rng G) f pr q n m lo hi B P k u x gr prm fuel wd N,
  good_rng R0 -> convex_problem f pr n m lo hi -> shapes_fit f pr n m -> tame pr n B P -> real_drift f pr q n ->
  n_complex q = false -> 0 < n_lmda q -> 0 <= B -> 0 <= P ->
  let delta := i_delta (w_inst wd) in
  0 < delta -> 0 < margin (n_lmda q) hi delta -> 0 < u ->
  (forall g, size (map RtoC (fst (g_randn R0 n g))) <= k) -> (forall g, u <= fst (g_rand R0 g)) ->
  length x = n -> reals x -> gradlogpi f pr q x None = Ok gr -> too_steep (n_lmda q) (n_mu q) hi B P delta k u (size gr) ->
  sized (w_inst wd) N -> p_nsamples prm = Z.of_nat N -> (0 < N)%nat ->
  exists wd', pxmala_run (mcmc_ops R0 f pr q) prm false fuel (StartArray [n] x) wd = (wd', NoFuel) /\
    i_acc (w_inst wd') = Some (repeat 0%Z fuel) /\ i_chain (w_inst wd') = i_chain (w_inst wd) /\
    i_logPi (w_inst wd') = i_logPi (w_inst wd).
Proof.
  intros G R0 f pr q n m lo hi B P k u x gr prm fuel wd N GR CP SF TM RD NC Hl HB HP delta Hd Hm Hu BN BU Lx Rx EG TS SZ EN HN.
  set (o := mcmc_ops R0 f pr q).
  assert (NX : forall x0 g0 tr i, mh_starts o (StartArray [n] x) (w_rng wd) x0 g0 ->
    mh_path o false i (x0, delta, g0) tr -> map (fun p => b2z (fst p)) tr = repeat 0%Z (length tr) /\ forall j s, nth_error tr j <> Some (true, s)).
  { intros x0 g0 tr i (S0 & _) PA. unfold o in S0. cbn [mcmc_ops o_init choose_start] in S0.
    rewrite (proj1 CP) in S0. cbn in S0. rewrite Lx, Nat.eqb_refl in S0. injection S0 as <- <-.
    exact (steep_path G R0 f pr q n m lo hi B P delta k u x gr GR CP TM RD NC Hl HB HP Hd Hm Hu BN BU Lx Rx EG TS _ _ _ PA). }
  assert (AG : forall (tr : list (bool * SamplerSpec.mh_state vec R G)) idx, (forall j s, nth_error tr j <> Some (true, s)) ->
    accepted_on_grid (p_nburn prm) (p_ngap prm) tr idx -> idx = @nil nat).
  { intros tr [|a idx] NO (_ & A); [reflexivity|]. exfalso. destruct (proj1 (A a) (or_introl eq_refl)) as (_ & s & E). exact (NO _ _ E). }
  destruct (proj2 (C06_numerical_runs_end_iff G R0 f pr q prm false (StartArray [n] x) wd n m N
      GR SF ltac:(lra) ltac:(split; [reflexivity|exact Lx]) SZ EN) fuel) as (wd' & [E | E]); fold o in E.
  - exfalso. destruct (mala_ref_ret _ _ _ _ _ _ _ _ SZ EN E) as (j & _ & (x0 & g0 & tr & idx & l & S0 & MP & LT & A & LL & F2 & _)).
    destruct (NX _ _ _ _ S0 MP) as (_ & NO). rewrite (AG _ _ NO A) in F2. inversion F2; subst l. cbn in LL. lia.
  - destruct (mala_ref_stop _ _ _ _ _ _ _ _ SZ EN E) as (j & _ & (x0 & g0 & tr & idx & l & S0 & MP & LT & A & LL & F2 & RC & EA & _)).
    destruct (NX _ _ _ _ S0 MP) as (RP & NO). rewrite (AG _ _ NO A) in F2. inversion F2; subst l.
    exists wd'. split; [exact E|]. split; [rewrite EA, RP, LT; reflexivity|].
    destruct RC as (RL & _ & _ & _ & RV). cbn [map] in RL, RV. unfold rec_arr in RL, RV. split.
    + destruct (i_chain (w_inst wd)), (i_chain (w_inst wd')); try (destruct RV; fail); auto.
      destruct RV as (rows & FF & _ & ->). inversion FF; subst. reflexivity.
    + destruct (i_logPi (w_inst wd)), (i_logPi (w_inst wd')); try (destruct RL; fail); auto.
      destruct RL as (rows & FF & _ & ->). inversion FF; subst. reflexivity.
Qed.
Print Assumptions C76_locked.

(** ** where the gradient is large *)
(** the gradient grows with the distance from the origin *)
Lemma drift_grows : forall f pr q n m lo hi B P x, convex_problem f pr n m lo hi -> tame pr n B P -> 0 < n_lmda q -> length x = n ->
  lo * nm x - nm (drift f pr q (repeat (RtoC 0) n)) - 2 * B / n_lmda q <= nm (drift f pr q x).
Proof.
  intros f pr q n m lo hi B P x CP (T1 & _) Hl Lx. set (o := repeat (RtoC 0) n). assert (LO : length o = n) by apply repeat_length.
  destruct (problem_parts f pr q n m lo hi x CP Lx) as (d & gr & p & A1 & A2 & A3 & A4 & A5 & _ & A7 & A8).
  destruct (problem_parts f pr q n m lo hi o CP LO) as (d' & gr' & p' & B1 & B2 & B3 & B4 & B5 & _ & B7 & B8).
  destruct CP as (EN & LM & HW & LD & _ & Lo & Hi & CB).
  destruct (gradg_cocoercive f n m lo hi x o d d' gr gr' LM HW LD Lo Hi CB Lx LO A1 B1 A2 B2) as (_ & C2). cbv zeta in C2.
  assert (XO : vsub x o = x).
  { unfold o. clear - Lx. revert x Lx. unfold vsub. induction n as [|k IH]; intros [|a x] L; cbn in *; try lia; [reflexivity|].
    f_equal; [ring|apply IH; lia]. }
  rewrite XO in C2. rewrite <- nm_sq in C2.
  assert (LG : length (vsub gr gr') = n) by (rewrite vsub_length; congruence).
  assert (CS := cauchy (vsub gr gr') x ltac:(congruence)). assert (X0 := nm_nonneg x).
  assert (K1 : lo * nm x <= nm (vsub gr gr')).
  { destruct X0 as [X0 | X0]; [|rewrite <- X0; rewrite Rmult_0_r; apply nm_nonneg]. nra. }
  assert (Ux := T1 x p Lx A3). assert (Uo := T1 o p' LO B3). rewrite size_nm in Ux, Uo. fold (vsub x p) in Ux. fold (vsub o p') in Uo.
  assert (I0 := Rinv_0_lt_compat _ Hl).
  assert (GE : vsub gr gr' = vadd (vsub (drift f pr q o) (drift f pr q x)) (vscal (RtoC (- / n_lmda q)) (vsub (vsub x p) (vsub o p')))).
  { rewrite A8, B8. unfold langevin_drift. clear - Lx LO A4 A5 B4 B5. clearbody o. revert x o p p' gr gr' Lx LO A4 A5 B4 B5. unfold vsub, vadd, vscal.
    induction n as [|k IH]; intros [|x X] [|y Y] [|p p1] [|p' p1'] [|g gr] [|g' gr'] L1 L2 L3 L4 L5 L6; cbn in *; try lia; [reflexivity|].
    f_equal; [|apply IH; lia]. apply C_ext; cbn; ring. }
  assert (V1 : length (vsub x p) = n) by (rewrite vsub_length; congruence). assert (V2 : length (vsub o p') = n) by (rewrite vsub_length; congruence).
  assert (N1 := nm_vadd (vsub (drift f pr q o) (drift f pr q x)) (vscal (RtoC (- / n_lmda q)) (vsub (vsub x p) (vsub o p')))
    ltac:(rewrite vscal_length, !vsub_length; rewrite ?vsub_length; congruence)). rewrite <- GE in N1.
  rewrite nm_vscal, Rabs_Ropp, Rabs_pos_eq in N1 by lra.
  assert (N2 := nm_vsub (drift f pr q o) (drift f pr q x) ltac:(congruence)).
  assert (N3 := nm_vsub (vsub x p) (vsub o p') ltac:(congruence)).
  assert (/ n_lmda q * nm (vsub (vsub x p) (vsub o p')) <= / n_lmda q * (2 * B)) by (apply Rmult_le_compat_l; lra).
  unfold Rdiv. lra.
Qed.

Lemma steep_enough : forall lmda mu hi B P delta k u, 0 < delta -> 0 < margin lmda hi delta ->
  exists r, forall gamma, r <= gamma -> too_steep lmda mu hi B P delta k u gamma.
Proof.
  intros lmda mu hi B P delta k u Hd Hm. unfold too_steep. set (t := delta * margin lmda hi delta).
  assert (T0 : 0 < t) by (apply Rmult_lt_0_compat; auto). assert (T4 : 0 < t ^ 4) by (apply pow_lt; auto).
  assert (D4 : 0 < delta * t ^ 4) by (apply Rmult_lt_0_compat; auto).
  set (a := 6 * sqrt (2 * delta) * k). set (b := 256 * (Rabs mu * P + 2 * B / lmda + 2)). set (c := - (64 * ln u)).
  exists (1 + Rabs (a / t) + Rabs (b / t ^ 4) + Rabs (c / (delta * t ^ 4)))%R. intros g Hg.
  assert (X1 := Rabs_pos (a / t)). assert (X2 := Rabs_pos (b / t ^ 4)). assert (X3 := Rabs_pos (c / (delta * t ^ 4))).
  assert (Y1 := Rle_abs (a / t)). assert (Y2 := Rle_abs (b / t ^ 4)). assert (Y3 := Rle_abs (c / (delta * t ^ 4))).
  assert (G1 : 1 <= g) by lra. assert (G2 : g <= g ^ 2) by nra. assert (G4 : g <= g ^ 4).
  { replace (g ^ 4) with (g ^ 2 * g ^ 2) by ring. nra. }
  split; [exact G1|]. split; [|split].
  - replace a with (t * (a / t)) by (field; lra). apply Rmult_le_compat_l; lra.
  - replace b with (t ^ 4 * (b / t ^ 4)) by (field; lra). apply Rmult_le_compat_l; lra.
  - replace c with (delta * t ^ 4 * (c / (delta * t ^ 4))) by (field; lra). apply Rmult_lt_compat_l; lra.
Qed.

(** with a data term that sees every direction, every start outside some ball
    is such a start, whatever the bounds of the random numbers *)
Theorem C76_outside : forall f pr q n m lo hi B P delta k u, convex_problem f pr n m lo hi -> tame pr n B P -> 0 < n_lmda q -> 0 < lo ->
  0 < delta -> 0 < margin (n_lmda q) hi delta ->
  exists r, forall x, length x = n -> r <= size x -> exists gr, gradlogpi f pr q x None = Ok gr /\
    too_steep (n_lmda q) (n_mu q) hi B P delta k u (size gr).
Proof.
  intros f pr q n m lo hi B P delta k u CP TM Hl Hlo Hd Hm.
  destruct (steep_enough (n_lmda q) (n_mu q) hi B P delta k u Hd Hm) as (r & HR).
  set (z := nm (drift f pr q (repeat (RtoC 0) n)) + 2 * B / n_lmda q).
  exists ((r + z) / lo). intros x Lx Hx.
  destruct (problem_parts f pr q n m lo hi x CP Lx) as (d & gr & p & _ & _ & _ & _ & _ & A6 & _).
  exists (drift f pr q x). split; [exact A6|]. apply HR. rewrite size_nm in *.
  assert (K := drift_grows f pr q n m lo hi B P x CP TM Hl Lx).
  assert (r + z <= lo * nm x) by (replace (r + z) with (lo * ((r + z) / lo)) by (field; lra); apply Rmult_le_compat_l; lra).
  unfold z in *. lra.
Qed.
Print Assumptions C76_outside.

(** ** regularisers *)
Lemma soft1_moves : forall z t, 0 <= t -> Cmod (z - soft1 z t)%C <= t.
Proof.
  intros z t Ht. unfold soft1. destruct (Rle_dec (Cmod z) t) as [H | H].
  - replace (z - RtoC 0)%C with z by ring. exact H.
  - destruct (Req_EM_T (Cmod z) 0) as [E | E].
    + replace (z - RtoC 0)%C with z by ring. lra.
    + replace (z - RtoC ((Cmod z - t) / Cmod z) * z)%C with (RtoC (t / Cmod z) * z)%C.
      * rewrite Cmod_mult, Cmod_R. assert (P := Cmod_ge_0 z). rewrite Rabs_pos_eq.
        -- apply Req_le. field. exact E.
        -- apply Rmult_le_pos; [auto|left; apply Rinv_0_lt_compat; lra].
      * replace (t / Cmod z) with (1 - (Cmod z - t) / Cmod z) by (field; auto). rewrite RtoC_minus. ring.
Qed.

Lemma soft_moves : forall Tl x, (forall t, In t Tl -> 0 <= t) -> length Tl = length x ->
  nrm2 (vsub x (map2 soft1 x Tl)) <= rsum (map (fun t => t ^ 2) Tl).
Proof.
  unfold nrm2, vsub, rsum. induction Tl as [|t Tl IH]; intros [|z x] NN L; cbn in L; try lia; [cbn; lra|].
  cbn [map2 map fold_right]. specialize (IH x (fun s H => NN s (or_intror H)) ltac:(lia)).
  assert (K := soft1_moves z t (NN t (or_introl eq_refl))). assert (P := Cmod_ge_0 (z - soft1 z t)%C).
  assert (Cmod (z - soft1 z t)%C ^ 2 <= t ^ 2) by (apply pow_incr; lra). lra.
Qed.

Lemma l1_vs_l2 : forall v, rsum (map Cmod v) <= sqrt (INR (length v)) * nm v.
Proof.
  intros v. assert (K := cauchy (repeat (RtoC 1) (length v)) (map (fun z => RtoC (Cmod z)) v) ltac:(rewrite repeat_length, map_length; reflexivity)).
  assert (E1 : Re (cdot (repeat (RtoC 1) (length v)) (map (fun z => RtoC (Cmod z)) v)) = rsum (map Cmod v)).
  { clear. induction v as [|z v IH]; [reflexivity|]. unfold cdot, csum, rsum in *. cbn [length repeat map map2 fold_right] in *. rewrite <- IH. cbn. unfold Re. ring. }
  assert (E2 : nrm2 (repeat (RtoC 1) (length v)) = INR (length v)).
  { clear. induction v as [|z v IH]; [reflexivity|]. unfold nrm2, rsum in *. cbn [length repeat map fold_right]. rewrite IH, Cmod_1, S_INR. ring. }
  assert (E3 : nrm2 (map (fun z => RtoC (Cmod z)) v) = nrm2 v).
  { unfold nrm2. rewrite map_map. f_equal. apply map_ext. intros z. rewrite Cmod_R, Rabs_pos_eq by apply Cmod_ge_0. reflexivity. }
  rewrite E1 in K. unfold nm in *. rewrite E2, E3 in K. exact K.
Qed.

Lemma l1_slope : forall n x y, length x = n -> length y = n -> Rabs (L1_prior x - L1_prior y) <= sqrt (INR n) * nm (vsub x y).
Proof.
  intros n x y Lx Ly. assert (LS : length (vsub x y) = n) by (rewrite vsub_length; congruence).
  rewrite <- LS at 1. eapply Rle_trans; [|apply l1_vs_l2]. clear LS. unfold L1_prior, vabs, vsub, rsum. revert x y Lx Ly.
  induction n as [|k IH]; intros [|a x] [|b y] L1 L2; cbn in L1, L2; try lia; cbn [map map2 fold_right].
  - rewrite Rminus_0_r, Rabs_R0. lra.
  - specialize (IH x y ltac:(lia) ltac:(lia)).
    set (s := fold_right Rplus 0 (map Cmod x)) in *. set (t := fold_right Rplus 0 (map Cmod y)) in *.
    replace (Cmod a + s - (Cmod b + t)) with ((Cmod a - Cmod b) + (s - t)) by ring.
    eapply Rle_trans; [apply Rabs_triang|]. apply Rplus_le_compat; [|exact IH].
    assert (K1 := Cmod_triangle (a - b)%C b). assert (K2 := Cmod_triangle (b - a)%C a).
    replace (a - b + b)%C with a in K1 by ring. replace (b - a + a)%C with b in K2 by ring.
    replace (b - a)%C with (- (a - b))%C in K2 by ring. rewrite Cmod_opp in K2.
    apply Rabs_le. lra.
Qed.

(** both L1 regularisers are tame: their proximal maps move no sample further
    than the length of the thresholds *)
Theorem C76_regularisers : forall fwd adj T Tl p n, (forall t, In t Tl -> 0 <= t) ->
  let B := sqrt (rsum (map (fun t => t ^ 2) Tl)) in let pr := mkPrior (fun X => Ok (L1_prior X)) (proxf p) in
  (L1_init "synthesis" fwd adj T = Ok p -> thresholds T n Tl -> tame pr n B (sqrt (INR n))) /\
  (forall m, L1_init "analysis" fwd adj T = Ok p -> thresholds T m Tl ->
     adjoint_pair adj fwd n m -> not_enlarging fwd m -> tame pr n B (sqrt (INR n))).
Proof.
  intros fwd adj T Tl p n NN B pr.
  assert (SLOPE : forall x y a b, length x = n -> length y = n -> pr_prior pr x = Ok a -> pr_prior pr y = Ok b ->
     Rabs (a - b) <= sqrt (INR n) * size (map2 Cminus x y)).
  { intros x y a b Lx Ly Ea Eb. cbn in Ea, Eb. injection Ea as <-. injection Eb as <-. apply l1_slope; auto. }
  split.
  - intros E TH. injection E as <-. split; [|exact SLOPE]. intros x s Lx Es. cbn [pr pr_proxf] in Es. rewrite synth_soft in Es by reflexivity. cbn [p_T] in Es.
    rewrite (soft_thresholds x T Tl) in Es by (rewrite Lx; auto). apply Ok_inj in Es. subst s. rewrite size_nm. apply sqrt_le_1_alt.
    apply soft_moves; auto. destruct TH; congruence.
  - intros m E TH AP NE. injection E as <-. split; [|exact SLOPE]. intros x s Lx Es. destruct AP as (MA & MF & AD).
    assert (LT : length Tl = m) by apply TH. destruct (MA x Lx) as (a & Ea & La).
    assert (Ls : length (map2 soft1 a Tl) = m) by (rewrite map2_length; congruence).
    destruct (MF (vsub (map2 soft1 a Tl) a) ltac:(rewrite vsub_length; congruence)) as (f & Ef & Lf).
    change (proxf_analysis (mkL1 "analysis" fwd adj T) x = Ok s) in Es. unfold proxf_analysis in Es. cbn [p_adj p_fwd p_T] in Es.
    rewrite Ea in Es. cbn [rbind] in Es. rewrite (soft_thresholds a T Tl) in Es by (rewrite La; auto). cbn [rbind] in Es.
    unfold np_sub in Es. rewrite np_bin_same in Es by congruence. cbn [rbind] in Es.
    change (map2 Cminus (map2 soft1 a Tl) a) with (vsub (map2 soft1 a Tl) a) in Es. rewrite Ef in Es. cbn [rbind] in Es.
    unfold np_add in Es. rewrite np_bin_same in Es by congruence. apply Ok_inj in Es. subst s. rewrite size_nm. fold (vsub x (map2 Cplus x f)).
    assert (EQ : nm (vsub x (map2 Cplus x f)) = nm f).
    { unfold nm. f_equal. clear - Lx Lf. revert x f Lx Lf. unfold nrm2, vsub, rsum.
      induction n as [|k IH]; intros [|z x] [|w f] L1 L2; cbn in L1, L2; try lia; [reflexivity|]. cbn [map2 map fold_right].
      rewrite (IH x f ltac:(lia) ltac:(lia)). replace (z - (z + w))%C with (- w)%C by ring. rewrite Cmod_opp. reflexivity. }
    rewrite EQ. apply sqrt_le_1_alt.
    apply Rle_trans with (nrm2 (vsub (map2 soft1 a Tl) a)); [apply (NE (vsub (map2 soft1 a Tl) a) f); [rewrite vsub_length; congruence|exact Ef]|].
    rewrite <- nm_sq, nm_vopp by congruence. rewrite nm_sq. apply soft_moves; [exact NN|congruence].
Qed.
Print Assumptions C76_regularisers.

(** ** parameters observed directly, with a sparse prior *)
Lemma real_soft : forall Tl x, real_vec x -> real_vec (map2 soft1 x Tl).
Proof.
  induction Tl as [|t Tl IH]; intros [|z x] H c Hc; cbn in Hc; try tauto.
  destruct Hc as [<- | Hc]; [|apply (IH x); [intros y Hy; apply H; right; exact Hy|exact Hc]].
  assert (Z := H z (or_introl eq_refl)). unfold soft1. destruct (Rle_dec _ _); [reflexivity|]. destruct (Req_EM_T _ _); [reflexivity|].
  destruct z as [a b]. cbn in *. subst b. ring.
Qed.

Lemma direct_gradient : forall n w c d, length c = n -> length d = n ->
  fo_gradg (direct n w c) d = Ok (vscal (RtoC w) (vsub d (arr c))).
Proof.
  intros n w c d Lc Ld. unfold fo_gradg, gradg_analysis, direct.
  cbn [fo_setting String.eqb Ascii.eqb Bool.eqb fo_measurement attr rbind fo_data d_val fo_invcov].
  rewrite np_sub_same by (rewrite arr_length; congruence). cbn [rbind].
  assert (LS : length (vsub d (arr c)) = n) by (rewrite vsub_length; rewrite ?arr_length; congruence).
  rewrite np_dot_ok by (cbn; auto). cbn [rbind id_meas ms_adjoint]. rewrite matvec_scaled_identity by auto. reflexivity.
Qed.

Lemma cdot_vscal_nrm2 : forall w x, cdot x (vscal (RtoC w) x) = RtoC (w * nrm2 x).
Proof.
  intros w. unfold cdot, vscal, nrm2, csum, rsum. induction x as [|z x IH]; cbn [map map2 fold_right]; [f_equal; ring|].
  rewrite IH, Cmod_sq. destruct z. apply C_ext; cbn; ring.
Qed.

Lemma direct_problem : forall n w c pr, length c = n -> 0 < w -> firm_residual pr n -> convex_problem (direct n w c) pr n n w w.
Proof.
  intros n w c pr Lc Hw FR. split; [reflexivity|]. split; [|split; [|split; [|split; [exact FR|split; [lra|split; [lra|]]]]]].
  - left. split; [reflexivity|]. exists id_meas. split; [reflexivity|]. split; [|split].
    + intros x Lx. exists x. split; [reflexivity|exact Lx].
    + intros x Lx. exists x. split; [reflexivity|exact Lx].
    + intros x y u v Lx Ly Eu Ev. cbn in Eu, Ev. injection Eu as <-. injection Ev as <-. reflexivity.
  - split; [reflexivity|]. split; [reflexivity|]. intros i j Hi Hj. cbn. rewrite (Nat.eqb_sym j i).
    destruct (Nat.eqb i j); apply C_ext; cbn; ring.
  - cbn. rewrite arr_length. exact Lc.
  - intros x fx Lx E. cbn in E. injection E as <-. rewrite <- cdot_matvec_quadform by (cbn; auto). cbn [direct fo_invcov]. rewrite matvec_scaled_identity by auto.
    rewrite cdot_vscal_nrm2. cbn. lra.
Qed.

Lemma real_arr : forall x, real_vec (arr x).
Proof. intros x z Hz. apply in_map_iff in Hz. destruct Hz as (s & <- & _). reflexivity. Qed.

Lemma sparse_parts : forall fwd adj T Tl p n w c q, (forall t, In t Tl -> 0 <= t) ->
  L1_init "synthesis" fwd adj T = Ok p -> thresholds T n Tl -> length c = n -> 0 < w ->
  let f := direct n w c in let pr := mkPrior (fun X => Ok (L1_prior X)) (proxf p) in
  convex_problem f pr n n w w /\ shapes_fit f pr n n /\
  tame pr n (sqrt (rsum (map (fun t => t ^ 2) Tl))) (sqrt (INR n)) /\ real_drift f pr q n.
Proof.
  intros fwd adj T Tl p n w c q NN EI TH Lc Hw f pr.
  assert (FR : firm_residual pr n) by (apply (proj1 (C56_regularisers fwd adj T Tl p (fun X => Ok (L1_prior X)) n NN) EI TH)).
  assert (TM := proj1 (C76_regularisers fwd adj T Tl p n NN) EI TH). cbv zeta in TM. fold pr in TM.
  assert (CP := direct_problem n w c pr Lc Hw FR). fold f in CP.
  assert (PX : forall X, length X = n -> pr_proxf pr X = Ok (map2 soft1 X Tl)).
  { intros X LX. injection EI as <-. cbn [pr pr_proxf]. rewrite synth_soft by reflexivity. cbn [p_T]. apply soft_thresholds. rewrite LX; auto. }
  split; [exact CP|]. split; [|split; [exact TM|]].
  - split; [reflexivity|]. split; [cbn; rewrite arr_length; exact Lc|]. split; [reflexivity|]. split; [reflexivity|].
    split; [intros X LX; exists X; split; [reflexivity|exact LX]|].
    split; [intros d Ld; eexists; split; [apply direct_gradient; auto|rewrite vscal_length, vsub_length; rewrite ?arr_length; congruence]|].
    split; [apply FR|intros; eexists; reflexivity].
  - intros Y g LY RY EY.
    rewrite (gradlogpi_value f pr q Y Y (map2 soft1 Y Tl) (vscal (RtoC w) (vsub Y (arr c))) None) in EY.
    + apply Ok_inj in EY. subst g. unfold langevin_drift. apply real_vsub.
      * apply real_vscal, real_vsub; [exact RY|apply real_soft; exact RY].
      * apply real_vscal, real_vsub; [exact RY|apply real_arr].
    + apply PX; auto.
    + rewrite map2_length; [reflexivity|]. destruct TH; congruence.
    + left. split; reflexivity.
    + apply direct_gradient; auto.
    + rewrite vscal_length, vsub_length; rewrite ?arr_length; congruence.
Qed.

(** n parameters observed directly with an L1 prior: outside some ball every
    start is one from which PxMALA never moves *)
Theorem C76_sparse : forall fwd adj T Tl p n w c q delta k u, (forall t, In t Tl -> 0 <= t) ->
  L1_init "synthesis" fwd adj T = Ok p -> thresholds T n Tl -> length c = n -> 0 < w -> 0 < n_lmda q -> n_complex q = false ->
  0 < delta -> delta * (/ n_lmda q + w) < 2 -> 0 < u ->
  let f := direct n w c in let pr := mkPrior (fun X => Ok (L1_prior X)) (proxf p) in
  exists r, forall G (R0 : rng G) (x : list R) prm fuel wd N,
    good_rng R0 -> (forall g, size (map RtoC (fst (g_randn R0 n g))) <= k) -> (forall g, u <= fst (g_rand R0 g)) ->
    length x = n -> r <= size (arr x) -> i_delta (w_inst wd) = delta ->
    sized (w_inst wd) N -> p_nsamples prm = Z.of_nat N -> (0 < N)%nat ->
    exists wd', pxmala_run (mcmc_ops R0 f pr q) prm false fuel (StartArray [n] (arr x)) wd = (wd', NoFuel) /\
      i_acc (w_inst wd') = Some (repeat 0%Z fuel) /\ i_chain (w_inst wd') = i_chain (w_inst wd) /\
      i_logPi (w_inst wd') = i_logPi (w_inst wd).
Proof.
  intros fwd adj T Tl p n w c q delta k u NN EI TH Lc Hw Hl NC Hd Hs Hu f pr.
  destruct (sparse_parts fwd adj T Tl p n w c q NN EI TH Lc Hw) as (CP & SF & TM & RD). fold f pr in CP, SF, TM, RD.
  set (B := sqrt _) in TM. set (P := sqrt (INR n)) in TM.
  assert (MG : 0 < margin (n_lmda q) w delta) by (unfold margin; lra).
  destruct (C76_outside f pr q n n w w B P delta k u CP TM Hl Hw Hd MG) as (r & HR).
  exists r. intros G R0 x prm fuel wd N GR BN BU Lx Hx ED SZ EN HN.
  assert (La : length (arr x) = n) by (rewrite arr_length; exact Lx).
  destruct (HR (arr x) La Hx) as (gr & EG & TS).
  apply (C76_locked G R0 f pr q n n w w B P k u (arr x) gr prm fuel wd N); auto; try (rewrite ED; auto); try apply sqrt_pos.
  apply real_arr.
Qed.
Print Assumptions C76_sparse.

(** two parameters, data 0, thresholds 1, lambda = mu = 1, step size 1/2, start
    at (3000, 4000): no proposal is accepted while normal vectors have length at
    most 3 and uniform numbers are at least exp(-10) *)
Example C76_case : forall s n0 b, let q := mkNum 1 1 s b in
  let pr := mkPrior (fun X => Ok (L1_prior X)) (proxf (mkL1 "synthesis" n0 n0 (TScal 1))) in
  gradlogpi (direct 2 1 [0; 0]) pr q (arr [3000; 4000]) None = Ok (arr [-3001; -4001]) /\
  too_steep 1 1 1 (sqrt 2) (sqrt 2) (1 / 2) 3 (exp (-10)) (size (arr [-3001; -4001])).
Proof.
  intros s n0 b q pr. split.
  - rewrite (gradlogpi_value _ pr q (arr [3000; 4000]) (arr [3000; 4000]) (arr [2999; 3999]) (arr [3000; 4000]) None); try reflexivity.
    + f_equal. unfold langevin_drift. cbn. repeat f_equal; apply C_ext; cbn; field.
    + cbn [pr pr_proxf]. rewrite synth_soft by reflexivity. cbn [p_T]. rewrite soft_scal. cbn [arr map]. rewrite !soft1_big by lra. repeat f_equal; lra.
    + left. split; reflexivity.
    + rewrite direct_gradient by reflexivity. cbn. f_equal. unfold arr. cbn. repeat f_equal; apply C_ext; cbn; ring.
  - set (g := size _). assert (G2 : g ^ 2 = 25014002).
    { unfold g, size. rewrite pow2_sqrt; [|cbn; nra]. cbn [map arr fold_right]. rewrite !Cmod_sq. cbn. ring. }
    assert (G0 : 0 <= g) by apply sqrt_pos. assert (G1 : 5000 <= g) by nra.
    assert (S2 : sqrt 2 <= 3 / 2) by (rewrite <- (sqrt_pow2 (3 / 2)) by lra; apply sqrt_le_1_alt; lra).
    assert (S20 := sqrt_pos 2).
    unfold too_steep, margin. replace (1 / 2 * (1 - 1 / 2 * (/ 1 + 1) / 2)) with (1 / 4) by field.
    replace (2 * (1 / 2)) with 1 by field. rewrite sqrt_1, Rabs_R1, ln_exp.
    replace (g ^ 4) with (g ^ 2 * g ^ 2) by ring. rewrite G2. repeat split; lra.
Qed.
