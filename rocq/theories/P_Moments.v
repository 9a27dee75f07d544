(** C60: mean and spread of MYULA chains over the random numbers. *)
From Coq Require Import List ZArith Lia Bool Reals Lra Psatz String.
From Coquelicot Require Import Coquelicot.
From Verif Require Import PyBase PyBaseFacts CVec Thresh ThreshSpec ThreshProof OpSpec Utils UtilsProof Prior PriorProof Forward
  McmcSpec FwdProof Sampler SamplerSpec SamplerFacts SamplerMain Mcmc StepProof P_Samplers P_Mcmc P_Works StableProof P_Stable
  MomentSpec MomentProof.
Import ListNotations.
Notation length := List.length.
Open Scope R_scope.

(** ** the iterates of a run as functions of the tape *)

Definition drift (f : forward_op) (pr : prior_obj) (q : numparams) (X : vec) : vec :=
  match gradlogpi f pr q X None with Ok g => g | Raise _ => [] end.
Definition next_mean f pr q delta (X : vec) : vec := vadd X (vscal (RtoC delta) (drift f pr q X)).

Lemma problem_parts : forall f pr q n m lo hi X, convex_problem f pr n m lo hi -> length X = n ->
  exists d gr p, fo_forward f X = Ok d /\ fo_gradg f d = Ok gr /\ pr_proxf pr X = Ok p /\ length gr = n /\ length p = n /\
    gradlogpi f pr q X None = Ok (drift f pr q X) /\ length (drift f pr q X) = n /\
    drift f pr q X = langevin_drift (n_lmda q) X p gr.
Proof.
  intros f pr q n m lo hi X (EN & LM & HW & LD & (MP & _) & _) LX.
  destruct (gradg_expansion f n m X X LM HW LD LX LX) as (d & _ & _ & gr & Ed & _ & _ & _ & _ & _ & Eg & Lg & _).
  destruct (MP X LX) as (p & Ep & Lp). exists d, gr, p.
  assert (E : gradlogpi f pr q X None = Ok (langevin_drift (n_lmda q) X p gr)).
  { apply (gradlogpi_value f pr q X d); auto; congruence. }
  assert (E' : drift f pr q X = langevin_drift (n_lmda q) X p gr) by (unfold drift; rewrite E; reflexivity).
  repeat (split; [assumption|]). split; [rewrite E'; exact E|]. split; [|exact E']. rewrite E', drift_length; congruence.
Qed.

Lemma next_mean_length : forall f pr q n m lo hi delta X, convex_problem f pr n m lo hi -> length X = n ->
  length (next_mean f pr q delta X) = n.
Proof.
  intros f pr q n m lo hi delta X CP LX. destruct (problem_parts f pr q n m lo hi X CP LX) as (_ & _ & _ & _ & _ & _ & _ & _ & _ & L & _).
  unfold next_mean. rewrite vadd_length; rewrite ?vscal_length; congruence.
Qed.

Lemma trans_tape : forall R0 f pr q n m lo hi delta X d l1 l2 X' d' l', good_rng R0 -> reads_tape R0 n ->
  convex_problem f pr n m lo hi -> n_lmda q <> 0 -> length X = n -> fo_forward f X = Ok d -> tape_of n (per_step (n_complex q)) l1 ->
  myula_trans (mcmc_ops R0 f pr q) delta (X, d, l1 ++ l2) (X', d', l') ->
  X' = vadd (next_mean f pr q delta X) (vscal (RtoC (sqrt (2 * delta))) (noise_of (n_complex q) l1)) /\ l' = l2 /\
  length X' = n /\ fo_forward f X' = Ok d'.
Proof.
  intros R0 f pr q n m lo hi delta X d l1 l2 X' d' l' GR RT CP NZ LX Ed T (gr & p & Eg & Ep & Es & Ef).
  cbn [mcmc_ops o_gradg o_proxf o_step o_forward] in *.
  destruct (problem_parts f pr q n m lo hi X CP LX) as (d0 & gr0 & p0 & A1 & A2 & A3 & A4 & A5 & A6 & A7 & A8).
  rewrite Ed in A1. injection A1 as <-. rewrite Eg in A2. injection A2 as <-. rewrite Ep in A3. injection A3 as <-.
  destruct (C12_step _ R0 f pr q delta X d p gr (l1 ++ l2) n GR (proj1 CP) NZ LX Ed Ep Eg A5 A4) as (gl & B1 & _ & _ & B4).
  rewrite A6 in B1. injection B1 as <-.
  destruct (noise_tape R0 (n_complex q) n l1 l2 RT T) as (N1 & N2). rewrite N1, Es in B4. injection B4 as -> ->.
  split; [reflexivity|]. split; [reflexivity|]. split; [|exact Ef].
  assert (L := next_mean_length f pr q n m lo hi delta X CP LX). unfold next_mean in L.
  rewrite vadd_length; rewrite ?vscal_length; congruence.
Qed.

Lemma path_tape : forall R0 f pr q n m lo hi delta, good_rng R0 -> reads_tape R0 n ->
  convex_problem f pr n m lo hi -> n_lmda q <> 0 ->
  forall k tr X d l X' d' l', length X = n -> fo_forward f X = Ok d ->
  (forall w, In w l -> length w = n) -> (per_step (n_complex q) * S k <= length l)%nat ->
  path (myula_trans (mcmc_ops R0 f pr q) delta) (X, d, l) tr -> nth_error tr k = Some (X', d', l') ->
  X' = it (next_mean f pr q delta) (sqrt (2 * delta)) (n_complex q) (S k) X l /\ length X' = n.
Proof.
  intros R0 f pr q n m lo hi delta GR RT CP NZ. set (b := n_complex q).
  induction k as [|k IH]; intros tr X d l X' d' l' LX Ed T HL P N; (destruct tr as [|((x1 & d1) & l1') tr]; [discriminate|]);
    destruct (path_inv _ _ _ _ P) as (TR & Q);
    (assert (E : l = firstn (per_step b) l ++ skipn (per_step b) l) by (symmetry; apply firstn_skipn));
    (assert (TT : tape_of n (per_step b) (firstn (per_step b) l)) by
       (split; [rewrite firstn_length; lia|intros w Hw; apply T; rewrite E; apply in_or_app; auto]));
    rewrite E in TR;
    destruct (trans_tape R0 f pr q n m lo hi delta X d _ _ x1 d1 l1' GR RT CP NZ LX Ed TT TR) as (E1 & -> & L1 & F1);
    (assert (EN : noise_of b (firstn (per_step b) l) = noise_of b l) by
       (rewrite E at 2; symmetry; apply noise_of_app; rewrite firstn_length; lia));
    fold b in E1; rewrite EN in E1; cbn [nth_error] in N.
  - injection N as <- <- <-. cbn [it]. auto.
  - cbn [it]. rewrite <- E1. eapply (IH tr x1 d1); eauto.
    + intros w Hw. apply T. rewrite E. apply in_or_app; auto.
    + rewrite skipn_length. lia.
Qed.

Lemma run_row : forall R0 f pr q prm n m lo hi N fuel sh X s0 l j w',
  let o := mcmc_ops R0 f pr q in
  good_rng R0 -> reads_tape R0 n -> convex_problem f pr n m lo hi -> n_lmda q <> 0 ->
  sized s0 N -> p_nsamples prm = Z.of_nat N -> i_chain s0 <> None -> (j < N)%nat ->
  (forall w, In w l -> length w = n) ->
  let k := S (Z.to_nat (save_iter (p_nburn prm) (p_ngap prm) j)) in (per_step (n_complex q) * k <= length l)%nat ->
  myula_run o prm fuel (StartArray sh X) (mkWorld s0 l) = (w', Ret tt) ->
  let x := it (next_mean f pr q (i_delta s0)) (sqrt (2 * i_delta s0)) (n_complex q) k X l in
  length X = n /\ length x = n /\
  row_of (myula_run o prm fuel (StartArray sh X)) s0 j [] l = st (n_complex q) x.
Proof.
  intros R0 f pr q prm n m lo hi N fuel sh X s0 l j w' o GR RT CP NZ SZ EN NC Hj T k HL M x.
  destruct (C01_myula_schedule _ _ _ _ _ _ o prm fuel _ (mkWorld s0 l) w' N SZ EN M) as (s1 & tr & es & S1 & P1 & _ & _ & L1 & _ & R1 & V1).
  cbn [w_inst w_rng] in *. assert (NP : fo_nparams f = Some n) by apply CP.
  assert (ST : exists d, s1 = (X, d, l) /\ length X = n /\ fo_forward f X = Ok d).
  { destruct s1 as ((x0 & d) & g'). destruct S1 as (I & F). unfold o in I, F. cbn [mcmc_ops o_init o_forward choose_start] in I, F. rewrite NP in I.
    destruct (negb (Nat.eqb (length sh) 1)); [discriminate|]. destruct (Nat.eqb_spec (length X) n); [|discriminate].
    injection I as <- <-. eauto. }
  destruct ST as (d & -> & LX & Ed).
  destruct (nth_error es j) as [e|] eqn:Ee; [|apply nth_error_None in Ee; lia].
  destruct (V1 j e Ee) as (((X' & d') & l') & A & B).
  destruct (path_tape R0 f pr q n m lo hi (i_delta s0) GR RT CP NZ _ tr X d l X' d' l' LX Ed T HL P1 A) as (EX & LX').
  fold k in EX. fold x in EX. split; [auto|]. split; [congruence|].
  assert (E1 : e_X e = x) by (rewrite <- EX; destruct e as ((? & ?) & ?); destruct B; auto).
  destruct R1 as (_ & _ & _ & _ & R1). unfold row_of, rec_arr in *. rewrite M. cbn [fst].
  destruct (i_chain s0) as [a0|]; [|congruence]. destruct (i_chain (w_inst w')) as [c|]; [|destruct R1].
  destruct R1 as (rows & F2 & _ & ->).
  assert (LR := Forall2_length _ _ _ F2). rewrite map_length in LR. rewrite app_nth1 by lia.
  assert (RW : o_rowV o (e_X e) = Ok (nth j rows [])).
  { clear - F2 Ee. revert rows j F2 Ee. induction es as [|e0 es IH]; intros rows j F2 E; inversion F2; subst; [destruct j; discriminate|].
    destruct j as [|j]; cbn in *; [injection E as ->; auto|]. eapply IH; eauto. }
  rewrite E1 in RW. unfold o in RW. cbn [mcmc_ops o_rowV] in RW. rewrite NP in RW. cbn [num_of] in RW.
  unfold store_row in RW. rewrite <- EX, LX', Nat.eqb_refl in RW. injection RW as RW. rewrite <- RW, EX. unfold st.
  destruct (n_complex q); [apply map_id|]. reflexivity.
Qed.

(** ** the runs considered *)

(** j-th row of N; every tape of K random vectors of length n lets the run
    return; K covers the iterations up to the one whose sample is row j *)
Definition tape_runs (R0 : rng (list (list R))) (f : forward_op) (pr : prior_obj) (q : numparams) (prm : params)
    (fuel : nat) (sh : list nat) (X : vec) (s0 : inst vec vec C R) (n N K j : nat) : Prop :=
  good_rng R0 /\ reads_tape R0 n /\ sized s0 N /\ p_nsamples prm = Z.of_nat N /\ i_chain s0 <> None /\ (j < N)%nat /\
  (per_step (n_complex q) * S (Z.to_nat (save_iter (p_nburn prm) (p_ngap prm) j)) <= K)%nat /\
  forall l, length l = K -> (forall w, In w l -> length w = n) ->
    exists w', myula_run (mcmc_ops R0 f pr q) prm fuel (StartArray sh X) (mkWorld s0 l) = (w', Ret tt).

(** iterations done when row j is stored *)
Definition steps_to (prm : params) (j : nat) : nat := S (Z.to_nat (save_iter (p_nburn prm) (p_ngap prm) j)).

Lemma row_expect : forall R0 f pr q prm fuel sh X s0 n m N K j lo hi S v (h : vec -> R),
  convex_problem f pr n m lo hi -> n_lmda q <> 0 -> white S n v -> tape_runs R0 f pr q prm fuel sh X s0 n N K j ->
  expect S K (fun l => h (row_of (myula_run (mcmc_ops R0 f pr q) prm fuel (StartArray sh X)) s0 j [] l)) =
  expect S K (fun l => h (st (n_complex q) (it (next_mean f pr q (i_delta s0)) (sqrt (2 * i_delta s0)) (n_complex q) (steps_to prm j) X l))).
Proof.
  intros R0 f pr q prm fuel sh X s0 n m N K j lo hi S v h CP NZ W (GR & RT & SZ & EN & NC & Hj & HK & ER).
  apply (expect_ext S n); [intros; apply W; auto|]. intros l (L & T).
  destruct (ER l L T) as (w' & E).
  destruct (run_row R0 f pr q prm n m lo hi N fuel sh X s0 l j w' GR RT CP NZ SZ EN NC Hj T ltac:(rewrite L; exact HK) E) as (_ & _ & RW).
  rewrite RW. reflexivity.
Qed.

Lemma start_length : forall R0 f pr q prm fuel sh X s0 n m N K j lo hi S v,
  convex_problem f pr n m lo hi -> n_lmda q <> 0 -> white S n v -> tape_runs R0 f pr q prm fuel sh X s0 n N K j -> length X = n.
Proof.
  intros R0 f pr q prm fuel sh X s0 n m N K j lo hi S v CP NZ W (GR & RT & SZ & EN & NC & Hj & HK & ER).
  set (l := repeat (repeat 0 n) K). assert (L : length l = K) by apply repeat_length.
  assert (T : forall w, In w l -> length w = n) by (intros w Hw; apply repeat_spec in Hw; rewrite Hw; apply repeat_length).
  destruct (ER l L T) as (w' & E).
  destruct (run_row R0 f pr q prm n m lo hi N fuel sh X s0 l j w' GR RT CP NZ SZ EN NC Hj T ltac:(rewrite L; exact HK) E) as (LX & _). exact LX.
Qed.

Lemma next_mean_contracts : forall f pr q n m lo hi delta xs X, convex_problem f pr n m lo hi -> 0 < n_lmda q -> 0 <= delta ->
  delta * (/ n_lmda q + hi) <= 2 -> length xs = n -> length X = n ->
  nrm2 (vsub (next_mean f pr q delta X) (next_mean f pr q delta xs)) <= rate (n_lmda q) delta lo hi * nrm2 (vsub X xs).
Proof.
  intros f pr q n m lo hi delta xs X CP Hl Hd HS Lx LX.
  destruct (problem_parts f pr q n m lo hi X CP LX) as (d & gr & p & A1 & A2 & A3 & A4 & A5 & A6 & A7 & A8).
  destruct (problem_parts f pr q n m lo hi xs CP Lx) as (d' & gr' & p' & B1 & B2 & B3 & B4 & B5 & B6 & B7 & B8).
  assert (CP' := CP). destruct CP' as (EN & LM & HW & LD & (MP & FR) & Lo & Hi & CB).
  destruct (gradg_cocoercive f n m lo hi X xs d d' gr gr' LM HW LD Lo Hi CB LX Lx A1 B1 A2 B2) as (C1 & C2).
  unfold next_mean. rewrite A8, B8. unfold langevin_drift.
  set (w := vzero n). assert (Lw : length w = n) by apply repeat_length.
  assert (L1 : length (vadd X (vscal (RtoC delta) (langevin_drift (n_lmda q) X p gr))) = n).
  { rewrite vadd_length; [auto|]. rewrite vscal_length, drift_length; congruence. }
  assert (L2 : length (vadd xs (vscal (RtoC delta) (langevin_drift (n_lmda q) xs p' gr'))) = n).
  { rewrite vadd_length; [auto|]. rewrite vscal_length, drift_length; congruence. }
  unfold langevin_drift in L1, L2.
  assert (E := step_difference (n_lmda q) delta (RtoC 0) X xs p p' gr gr' w).
  assert (Z : forall x y z : vec, length x = n -> length y = n -> length z = n -> vsub (vadd x z) (vadd y z) = vsub x y).
  { intros x y z E1 E2 E3. assert (F1 : length y = length x) by congruence. assert (F2 : length z = length x) by congruence. clear - F1 F2. revert y z F1 F2. unfold vsub, vadd. induction x as [|a x IH]; intros [|b y] [|e z]; cbn; intros; try lia; auto.
    f_equal; [ring|apply IH; lia]. }
  rewrite Z in E by (rewrite ?vscal_length; auto). rewrite E by congruence.
  assert (K : forall a b : vec, length a = n -> length b = n -> length (vsub a b) = n) by (intros; rewrite vsub_length; congruence).
  apply contraction; auto; try (rewrite !K; auto).
Qed.

Lemma next_mean_fixed : forall f pr q n delta xs, gradlogpi f pr q xs None = Ok (vzero n) -> length xs = n ->
  next_mean f pr q delta xs = xs.
Proof.
  intros f pr q n delta xs E L. unfold next_mean, drift. rewrite E. clear E. subst n. unfold vadd, vscal, vzero.
  induction xs as [|a xs IH]; [reflexivity|]. cbn. f_equal; [|exact IH]. cplx.
Qed.

Lemma st_closer : forall b x y, length x = length y -> nrm2 (vsub (st b x) (st b y)) <= nrm2 (vsub x y).
Proof.
  intros b x y L. unfold st. destruct b; [apply Rle_refl|]. revert y L. unfold vsub. induction x as [|a x IH]; intros [|e y] L; cbn in L; try lia; [apply Rle_refl|].
  cbn [map map2]. rewrite !nrm2_cons. specialize (IH y ltac:(lia)). 
  match type of IH with ?P <= ?Q => set (p := P) in *; set (r := Q) in * end.
  destruct a as (a1 & a2), e as (e1 & e2). unfold RtoC, Cminus, Cplus, Copp, Re; cbn [fst snd].
  assert (0 <= (a2 + - e2) ^ 2) by apply pow2_ge_0. nra.
Qed.

(** ** the mean square distance to the point where the drift vanishes *)

Theorem C60_spread_at_most : forall R0 f pr q prm fuel sh X s0 n m N K j lo hi S v xs,
  let delta := i_delta s0 in let r := rate (n_lmda q) delta lo hi in let k := steps_to prm j in
  convex_problem f pr n m lo hi -> lo <= hi -> 0 < n_lmda q -> 0 <= delta -> delta * (/ n_lmda q + hi) <= 2 ->
  white S n v -> tape_runs R0 f pr q prm fuel sh X s0 n N K j ->
  length xs = n -> gradlogpi f pr q xs None = Ok (vzero n) ->
  mean_sq S K (myula_run (mcmc_ops R0 f pr q) prm fuel (StartArray sh X)) s0 j (stored (n_complex q) xs) <=
  r ^ k * nrm2 (vsub X xs) + 2 * delta * (v * INR n * INR (per_step (n_complex q))) * geom r k.
Proof.
  intros R0 f pr q prm fuel sh X s0 n m N K j lo hi S v xs delta r k CP LH Hl Hd HS W TR Lx Ex.
  assert (NZ : n_lmda q <> 0) by lra. assert (LX := start_length _ _ _ _ _ _ _ _ _ _ _ _ _ _ _ _ _ _ CP NZ W TR).
  unfold mean_sq. rewrite (row_expect R0 f pr q prm fuel sh X s0 n m N K j lo hi S v (fun z => nrm2 (vsub z (stored (n_complex q) xs))) CP NZ W TR).
  assert (LA : forall Z, length Z = n -> length (next_mean f pr q delta Z) = n) by (intros; eapply next_mean_length; eauto).
  assert (HK : (per_step (n_complex q) * k <= K)%nat) by apply TR.
  set (c := sqrt (2 * delta)). assert (Ec : c ^ 2 = 2 * delta) by (unfold c; apply pow2_sqrt; lra).
  apply Rle_trans with (expect S K (fun l => nrm2 (vsub (it (next_mean f pr q delta) c (n_complex q) k X l) xs))).
  - apply (expect_le S n); [apply W|]. intros l (L & T). change (stored (n_complex q) xs) with (st (n_complex q) xs).
    apply st_closer. transitivity n; [|auto].
    assert (LI : forall k X l, length X = n -> (forall w, In w l -> length w = n) -> (per_step (n_complex q) * k <= length l)%nat ->
      length (it (next_mean f pr q delta) c (n_complex q) k X l) = n).
    { clear - LA. induction k as [|k IH]; intros X l LX T HL; [exact LX|]. cbn [it]. apply IH.
      - assert (E : l = firstn (per_step (n_complex q)) l ++ skipn (per_step (n_complex q)) l) by (symmetry; apply firstn_skipn).
        rewrite E, noise_of_app by (rewrite firstn_length; lia). apply (next_length _ c (n_complex q) n LA); auto.
        split; [rewrite firstn_length; lia|intros w Hw; apply T; rewrite E; apply in_or_app; auto].
      - intros w Hw. apply T. rewrite <- (firstn_skipn (per_step (n_complex q)) l). apply in_or_app; auto.
      - rewrite skipn_length. lia. }
    apply LI; auto. rewrite L. exact HK.
  - rewrite <- Ec. apply (second_upper _ c (n_complex q) S n v W LA); auto.
    + apply C56_rate; auto. destruct CP as (_ & _ & _ & _ & _ & H0 & _). split; auto.
    + intros Z LZ. rewrite <- (next_mean_fixed f pr q n delta xs Ex Lx) at 1. eapply next_mean_contracts; eauto.
Qed.
Print Assumptions C60_spread_at_most.

(** about any point, and for any step size: the last noise vector stays *)
Theorem C60_spread_at_least : forall R0 f pr q prm fuel sh X s0 n m N K j lo hi S v y,
  convex_problem f pr n m lo hi -> n_lmda q <> 0 -> 0 <= i_delta s0 -> white S n v ->
  tape_runs R0 f pr q prm fuel sh X s0 n N K j -> length y = n ->
  2 * i_delta s0 * (v * INR n * INR (per_step (n_complex q))) <=
  mean_sq S K (myula_run (mcmc_ops R0 f pr q) prm fuel (StartArray sh X)) s0 j y.
Proof.
  intros R0 f pr q prm fuel sh X s0 n m N K j lo hi S v y CP NZ Hd W TR Ly.
  assert (LX := start_length _ _ _ _ _ _ _ _ _ _ _ _ _ _ _ _ _ _ CP NZ W TR).
  unfold mean_sq. rewrite (row_expect R0 f pr q prm fuel sh X s0 n m N K j lo hi S v (fun z => nrm2 (vsub z y)) CP NZ W TR).
  assert (LA : forall Z, length Z = n -> length (next_mean f pr q (i_delta s0) Z) = n) by (intros; eapply next_mean_length; eauto).
  assert (HK : (per_step (n_complex q) * steps_to prm j <= K)%nat) by apply TR.
  set (c := sqrt (2 * i_delta s0)). assert (Ec : c ^ 2 = 2 * i_delta s0) by (unfold c; apply pow2_sqrt; lra). rewrite <- Ec.
  apply (second_lower _ c (n_complex q) S n v W LA); auto.
Qed.
Print Assumptions C60_spread_at_least.

(** a bound that does not depend on the step: n/lo per unit of v, doubled *)
Theorem C60_spread_small_steps : forall R0 f pr q prm fuel sh X s0 n m N K j lo hi S v xs,
  let delta := i_delta s0 in let k := steps_to prm j in
  convex_problem f pr n m lo hi -> lo <= hi -> 0 < lo -> 0 < n_lmda q -> 0 < delta -> delta * (/ n_lmda q + hi) <= 1 ->
  white S n v -> 0 <= v -> tape_runs R0 f pr q prm fuel sh X s0 n N K j ->
  length xs = n -> gradlogpi f pr q xs None = Ok (vzero n) ->
  mean_sq S K (myula_run (mcmc_ops R0 f pr q) prm fuel (StartArray sh X)) s0 j (stored (n_complex q) xs) <=
  (1 - delta * lo) ^ k * nrm2 (vsub X xs) + 2 * (v * INR n * INR (per_step (n_complex q))) / lo.
Proof.
  intros R0 f pr q prm fuel sh X s0 n m N K j lo hi S v xs delta k CP LH Lo Hl Hd HS W Hv TR Lx Ex.
  eapply Rle_trans; [apply (C60_spread_at_most R0 f pr q prm fuel sh X s0 n m N K j lo hi S v xs); auto; unfold delta in *; lra|].
  fold delta. fold k. set (r := rate (n_lmda q) delta lo hi). set (m2 := v * INR n * INR (per_step (n_complex q))).
  destruct (C56_rate (n_lmda q) delta lo hi Hl ltac:(lra) ltac:(lra) ltac:(lra)) as ((R1 & R2) & _ & R3).
  specialize (R3 HS). fold r in R1, R2, R3.
  assert (M0 : 0 <= m2) by (unfold m2; repeat apply Rmult_le_pos; auto; apply pos_INR).
  assert (D : 0 < delta * lo) by (apply Rmult_lt_0_compat; auto).
  apply Rplus_le_compat.
  - apply Rmult_le_compat_r; [apply nrm2_nonneg|]. apply pow_incr. lra.
  - assert (G := geom_value r k). assert (P : 0 <= r ^ k) by (apply pow_le; auto). assert (GN := geom_nonneg r k R1).
    assert (G2 : delta * lo * geom r k <= 1).
    { apply Rle_trans with ((1 - r) * geom r k); [apply Rmult_le_compat_r; [auto|lra]|lra]. }
    apply Rmult_le_reg_r with lo; [auto|]. unfold Rdiv. rewrite Rmult_assoc, (Rmult_assoc _ (/ lo) lo), Rinv_l, Rmult_1_r by lra.
    apply Rle_trans with (2 * m2 * (delta * lo * geom r k)); [apply Req_le; ring|].
    rewrite <- (Rmult_1_r (2 * m2)) at 2. apply Rmult_le_compat_l; lra.
Qed.
Print Assumptions C60_spread_small_steps.

(** ** the point about which the chain spreads *)

Lemma nrm2_nth : forall n x y, length x = n -> length y = n ->
  nrm2 (vsub x y) = rsum (map (fun i => (fst (nth i x (RtoC 0)) - fst (nth i y (RtoC 0))) ^ 2 + (snd (nth i x (RtoC 0)) - snd (nth i y (RtoC 0))) ^ 2) (seq 0 n)).
Proof.
  intros n. unfold vsub. induction n as [|n IH]; intros [|a x] [|b y] Lx Ly; cbn in Lx, Ly; try lia; [reflexivity|].
  cbn [map2]. rewrite nrm2_cons. cbn [seq map rsum fold_right nth]. rewrite (IH x y) by lia. rewrite <- seq_shift, map_map.
  destruct a, b. reflexivity.
Qed.
Lemma rsum_bound : forall (g : nat -> R) l i, (forall j, 0 <= g j) -> In i l -> g i <= rsum (map g l).
Proof.
  intros g l i P. induction l as [|a l IH]; intros H; [destruct H|]. cbn [map rsum fold_right]. fold (rsum (map g l)).
  assert (0 <= rsum (map g l)) by (apply rsum_nonneg; intros z Hz; apply in_map_iff in Hz; destruct Hz as (t & <- & _); auto).
  destruct H as [->|H]; [lra|]. specialize (IH H). specialize (P a). lra.
Qed.
Lemma nth_close : forall n x y i, length x = n -> length y = n -> (i < n)%nat ->
  (fst (nth i x (RtoC 0)) - fst (nth i y (RtoC 0))) ^ 2 <= nrm2 (vsub x y) /\ (snd (nth i x (RtoC 0)) - snd (nth i y (RtoC 0))) ^ 2 <= nrm2 (vsub x y).
Proof.
  intros n x y i Lx Ly Hi. rewrite (nrm2_nth n) by auto.
  set (g := fun i => (fst (nth i x (RtoC 0)) - fst (nth i y (RtoC 0))) ^ 2 + (snd (nth i x (RtoC 0)) - snd (nth i y (RtoC 0))) ^ 2).
  assert (P : forall j, 0 <= g j) by (intros j; unfold g; generalize (pow2_ge_0 (fst (nth j x (RtoC 0)) - fst (nth j y (RtoC 0)))) (pow2_ge_0 (snd (nth j x (RtoC 0)) - snd (nth j y (RtoC 0)))); lra).
  assert (B := rsum_bound g (seq 0 n) i P ltac:(apply in_seq; lia)). unfold g in B at 1.
  generalize (pow2_ge_0 (fst (nth i x (RtoC 0)) - fst (nth i y (RtoC 0)))) (pow2_ge_0 (snd (nth i x (RtoC 0)) - snd (nth i y (RtoC 0)))). lra.
Qed.
Lemma lim_rsum : forall (g : nat -> nat -> R) l, (forall i, In i l -> is_lim_seq (g i) 0) ->
  is_lim_seq (fun k => rsum (map (fun i => g i k) l)) 0.
Proof.
  intros g l. induction l as [|a l IH]; intros H; cbn [map rsum fold_right]; [apply is_lim_seq_const|].
  replace (Finite 0) with (Finite (0 + 0)) by (f_equal; ring). apply is_lim_seq_plus'; [apply H; cbn; auto|].
  apply IH. intros; apply H; cbn; auto.
Qed.
(** a sequence whose increments are bounded by a geometric one *)
Lemma geometric_limit : forall (u : nat -> R) r c, 0 <= r < 1 -> (forall k, (u (S k) - u k) ^ 2 <= r ^ k * c) -> 0 <= c ->
  exists l : R, is_lim_seq u l.
Proof.
  intros u r c (R0 & R1) H Hc.
  assert (S1 : sqrt r < 1) by (rewrite <- sqrt_1; apply sqrt_lt_1; lra).
  assert (E : ex_series (fun k => u (S k) - u k)).
  { apply (ex_series_le (K := R_AbsRing) (V := R_CompleteNormedModule) _ (fun k => sqrt c * sqrt r ^ k)).
    - intros k. change (Rabs (u (S k) - u k) <= sqrt c * sqrt r ^ k). specialize (H k).
      rewrite <- sqrt_Rsqr_abs. rewrite Rsqr_pow2. 
      apply Rle_trans with (sqrt (r ^ k * c)); [apply sqrt_le_1_alt; exact H|].
      rewrite sqrt_mult_alt by (apply pow_le; auto). rewrite Rmult_comm.
      assert (EP : sqrt (r ^ k) = sqrt r ^ k).
      { clear - R0. induction k as [|k IH]; cbn; [apply sqrt_1|]. rewrite sqrt_mult_alt by auto. rewrite IH. reflexivity. }
      rewrite EP. lra.
    - apply (ex_series_scal (K := R_AbsRing) (V := R_NormedModule) (sqrt c)). apply ex_series_geom.
      rewrite Rabs_pos_eq by apply sqrt_pos. exact S1. }
  destruct E as (s & E). exists (u 0%nat + s). apply is_lim_seq_incr_1.
  apply (is_lim_seq_ext (fun k => u 0%nat + sum_n (fun k => u (S k) - u k) k)).
  - intros k. induction k as [|k IH]; [rewrite sum_O; ring|]. rewrite sum_Sn. unfold plus; cbn [AbelianGroup.plus]. 
    transitivity (u 0%nat + sum_n (fun k0 => u (S k0) - u k0) k + (u (S (S k)) - u (S k))); [cbn; ring|]. rewrite IH. ring.
  - apply is_lim_seq_plus'; [apply is_lim_seq_const|]. exact E.
Qed.

Theorem C60_centre : forall f pr q n m lo hi, convex_problem f pr n m lo hi -> lo <= hi -> 0 < lo -> 0 < n_lmda q ->
  exists xs, length xs = n /\ gradlogpi f pr q xs None = Ok (vzero n) /\
    forall y, length y = n -> gradlogpi f pr q y None = Ok (vzero n) -> y = xs.
Proof.
  intros f pr q n m lo hi CP LH Lo Hl. assert (Hi : 0 < / n_lmda q) by (apply Rinv_0_lt_compat; auto).
  set (delta := / (/ n_lmda q + hi)). assert (Hd : 0 < delta) by (apply Rinv_0_lt_compat; lra).
  assert (HS : delta * (/ n_lmda q + hi) = 1) by (unfold delta; apply Rinv_l; lra).
  set (r := rate (n_lmda q) delta lo hi).
  destruct (C56_rate (n_lmda q) delta lo hi Hl ltac:(lra) ltac:(lra) ltac:(lra)) as ((R1 & R2) & R3 & _).
  specialize (R3 Lo Hd ltac:(lra)). fold r in R1, R2, R3.
  set (A := next_mean f pr q delta).
  assert (LA : forall X, length X = n -> length (A X) = n) by (intros; eapply next_mean_length; eauto).
  assert (CT : forall X Y, length X = n -> length Y = n -> nrm2 (vsub (A X) (A Y)) <= r * nrm2 (vsub X Y)).
  { intros X Y LX LY. eapply next_mean_contracts; eauto; lra. }
  set (x := fix x (k : nat) : vec := match k with O => vzero n | S k => A (x k) end).
  assert (Lx : forall k, length (x k) = n) by (induction k; [apply repeat_length|apply LA; auto]).
  set (c := nrm2 (vsub (x 1%nat) (x 0%nat))). assert (Hc : 0 <= c) by apply nrm2_nonneg.
  assert (D : forall k, nrm2 (vsub (x (S k)) (x k)) <= r ^ k * c).
  { induction k as [|k IH]; [cbn [pow]; fold c; lra|]. eapply Rle_trans; [apply (CT (x (S k)) (x k)); auto|].
    cbn [pow]. rewrite Rmult_assoc. apply Rmult_le_compat_l; auto. }
  assert (EL : forall i, (i < n)%nat -> exists z : C, is_lim_seq (fun k => fst (nth i (x k) (RtoC 0))) (fst z) /\ is_lim_seq (fun k => snd (nth i (x k) (RtoC 0))) (snd z)).
  { intros i Hi'. 
    destruct (geometric_limit (fun k => fst (nth i (x k) (RtoC 0))) r c ltac:(lra)) as (a & Ea); [|auto|].
    { intros k. eapply Rle_trans; [apply (nth_close n (x (S k)) (x k) i); auto|apply D]. }
    destruct (geometric_limit (fun k => snd (nth i (x k) (RtoC 0))) r c ltac:(lra)) as (b & Eb); [|auto|].
    { intros k. eapply Rle_trans; [apply (nth_close n (x (S k)) (x k) i); auto|apply D]. }
    exists (a, b). split; auto. }
  assert (EX : exists xs, length xs = n /\ forall i, (i < n)%nat -> is_lim_seq (fun k => fst (nth i (x k) (RtoC 0))) (fst (nth i xs (RtoC 0))) /\
     is_lim_seq (fun k => snd (nth i (x k) (RtoC 0))) (snd (nth i xs (RtoC 0)))).
  { clearbody x. clear - EL.
    induction n as [|n IH].
    - exists []. split; [reflexivity|]. intros; lia.
    - destruct IH as (xs & L & H); [intros; apply EL; lia|]. destruct (EL n ltac:(lia)) as (z & Ez).
      exists (xs ++ [z]). split; [rewrite app_length; cbn; lia|]. intros i Hi. destruct (Nat.eq_dec i n) as [->|NE].
      + rewrite app_nth2 by lia. rewrite L, Nat.sub_diag. exact Ez.
      + rewrite app_nth1 by lia. apply H. lia. }
  destruct EX as (xs & Ls & LIM).
  assert (Z : is_lim_seq (fun k => nrm2 (vsub (x k) xs)) 0).
  { apply (is_lim_seq_ext (fun k => rsum (map (fun i => (fst (nth i (x k) (RtoC 0)) - fst (nth i xs (RtoC 0))) ^ 2 + (snd (nth i (x k) (RtoC 0)) - snd (nth i xs (RtoC 0))) ^ 2) (seq 0 n)))).
    { intros k. symmetry. apply nrm2_nth; auto. }
    apply (lim_rsum (fun i k => (fst (nth i (x k) (RtoC 0)) - fst (nth i xs (RtoC 0))) ^ 2 + (snd (nth i (x k) (RtoC 0)) - snd (nth i xs (RtoC 0))) ^ 2)).
    intros i Hi'. apply in_seq in Hi'. destruct (LIM i ltac:(lia)) as (L1 & L2).
    assert (SQ : forall (u : nat -> R) (l : R), is_lim_seq u l -> is_lim_seq (fun k => (u k - l) ^ 2) 0).
    { intros u l Hu. replace (Finite 0) with (Finite ((l - l) * (l - l))) by (f_equal; ring).
      apply (is_lim_seq_ext (fun k => (u k - l) * (u k - l))); [intros; ring|].
      assert (is_lim_seq (fun k => u k - l) (l - l)) by (apply is_lim_seq_minus'; [auto|apply is_lim_seq_const]).
      apply is_lim_seq_mult'; auto. }
    replace (Finite 0) with (Finite (0 + 0)) by (f_equal; ring). apply is_lim_seq_plus'; apply SQ; auto. }
  assert (UN : forall (u : nat -> R) (a b : R), is_lim_seq u a -> (forall k, (u (S k) - b) ^ 2 <= r * nrm2 (vsub (x k) xs)) -> a = b).
  { intros u a b Ha H.
    assert (Q : is_lim_seq (fun k => (u (S k) - b) ^ 2) 0).
    { apply (is_lim_seq_le_le (fun _ => 0) _ (fun k => r * nrm2 (vsub (x k) xs))).
      - intros k. split; [apply pow2_ge_0|apply H].
      - apply is_lim_seq_const.
      - replace (Finite 0) with (Finite (r * 0)) by (f_equal; ring). apply is_lim_seq_mult'; [apply is_lim_seq_const|exact Z]. }
    assert (Q2 : is_lim_seq (fun k => (u (S k) - b) ^ 2) ((a - b) * (a - b))).
    { apply (is_lim_seq_ext (fun k => (u (S k) - b) * (u (S k) - b))); [intros; ring|].
      assert (is_lim_seq (fun k => u (S k) - b) (a - b)) by (apply is_lim_seq_minus'; [apply (is_lim_seq_incr_1 u); auto|apply is_lim_seq_const]).
      apply is_lim_seq_mult'; auto. }
    apply is_lim_seq_unique in Q. apply is_lim_seq_unique in Q2. rewrite Q in Q2. injection Q2 as Q2. nra. }
  assert (FX : A xs = xs).
  { apply nth_ext with (d := RtoC 0) (d' := RtoC 0); [rewrite LA, Ls; auto|]. intros i Hi'. rewrite LA in Hi' by auto.
    destruct (LIM i Hi') as (L1 & L2). assert (LAs := LA xs Ls).
    assert (B : forall k, nrm2 (vsub (x (S k)) (A xs)) <= r * nrm2 (vsub (x k) xs)) by (intros k; apply CT; auto).
    apply C_ext; symmetry.
    - apply (UN _ _ _ L1). intros k. eapply Rle_trans; [|apply B]. apply (nth_close n (x (S k)) (A xs) i); auto.
    - apply (UN _ _ _ L2). intros k. eapply Rle_trans; [|apply B]. apply (nth_close n (x (S k)) (A xs) i); auto. }
  exists xs. split; [exact Ls|].
  destruct (problem_parts f pr q n m lo hi xs CP Ls) as (_ & _ & _ & _ & _ & _ & _ & _ & G1 & G2 & _).
  split.
  - rewrite G1. f_equal. unfold A, next_mean in FX. revert FX G2. generalize (drift f pr q xs). clear - Ls Hd. unfold vadd, vscal, vzero.
    revert xs Ls. induction n as [|n IH]; intros [|a xs] Ls [|g gs] FX Lg; cbn in Ls, Lg; try lia; [reflexivity|].
    cbn [map map2] in FX. assert (F0 := f_equal (hd (RtoC 0)) FX). assert (F3 := f_equal (@tl C) FX). cbn [hd tl] in F0, F3.
    cbn [repeat]. f_equal; [|apply (IH xs); auto; lia].
    assert (F1 := f_equal fst F0). assert (F2 := f_equal snd F0). destruct a, g. cbn in F1, F2. apply C_ext; cbn; nra.
  - intros y Ly Ey. assert (C1 := CT y xs Ly Ls). unfold A in C1. rewrite (next_mean_fixed f pr q n delta y Ey Ly) in C1.
    fold A in C1. rewrite FX in C1. assert (N := nrm2_nonneg (vsub y xs)). assert (N0 : nrm2 (vsub y xs) = 0) by nra.
    apply nth_ext with (d := RtoC 0) (d' := RtoC 0); [congruence|]. intros i Hi'. rewrite Ly in Hi'.
    destruct (nth_close n y xs i Ly Ls Hi') as (B1 & B2). rewrite N0 in B1, B2.
    apply C_ext; [assert (B := pow2_ge_0 (fst (nth i y (RtoC 0)) - fst (nth i xs (RtoC 0))))|assert (B := pow2_ge_0 (snd (nth i y (RtoC 0)) - snd (nth i xs (RtoC 0))))]; nra.
Qed.
Print Assumptions C60_centre.

(** ** no regulariser and isotropic data: exact mean and mean square *)

Lemma isotropic_mean : forall f pr q n m w delta xs X, convex_problem f pr n m w w ->
  (forall Z, length Z = n -> pr_proxf pr Z = Ok Z) -> length xs = n -> gradlogpi f pr q xs None = Ok (vzero n) -> length X = n ->
  next_mean f pr q delta X = vadd xs (vscal (RtoC (1 - delta * w)) (vsub X xs)).
Proof.
  intros f pr q n m w delta xs X CP NP Lx Ex LX.
  destruct (problem_parts f pr q n m w w X CP LX) as (d & gr & p & A1 & A2 & A3 & A4 & A5 & A6 & A7 & A8).
  destruct (problem_parts f pr q n m w w xs CP Lx) as (d' & gr' & p' & B1 & B2 & B3 & B4 & B5 & B6 & B7 & B8).
  rewrite (NP X LX) in A3. injection A3 as <-. rewrite (NP xs Lx) in B3. injection B3 as <-.
  assert (CP' := CP). destruct CP' as (EN & LM & HW & LD & _ & Lo & Hi & CB).
  destruct (gradg_cocoercive f n m w w X xs d d' gr gr' LM HW LD Lo Hi CB LX Lx A1 B1 A2 B2) as (C1 & C2).
  assert (E : vsub gr gr' = vscal (RtoC w) (vsub X xs)).
  { assert (K : length (vsub gr gr') = length (vscal (RtoC w) (vsub X xs))) by (rewrite vscal_length, !vsub_length; congruence).
    assert (N : nrm2 (vsub (vsub gr gr') (vscal (RtoC w) (vsub X xs))) = 0).
    { rewrite nrm2_vsub_expand by exact K. rewrite Re_cdot_sym, Re_cdot_vscal_r, nrm2_vscal_R.
      assert (Q := nrm2_nonneg (vsub (vsub gr gr') (vscal (RtoC w) (vsub X xs)))).
      rewrite nrm2_vsub_expand in Q by exact K. rewrite Re_cdot_sym, Re_cdot_vscal_r, nrm2_vscal_R in Q.
      set (s := Re (cdot (vsub gr gr') (vsub X xs))) in *. set (t := nrm2 (vsub X xs)) in *.
      assert (w * (w * t) <= w * s) by (apply Rmult_le_compat_l; lra). lra. }
    assert (LN : length (vsub gr gr') = n) by (rewrite vsub_length; congruence).
    apply nth_ext with (d := RtoC 0) (d' := RtoC 0); [exact K|]. intros i Hi'.
    destruct (nth_close n _ _ i LN (eq_trans (eq_sym K) LN) ltac:(lia)) as (D1 & D2). rewrite N in D1, D2.
    apply C_ext; nra. }
  rewrite Ex in B6. injection B6 as B6. rewrite <- B6 in B8. clear B6.
  unfold next_mean. rewrite A8. clear - E B8 LX Lx A4 B4. unfold langevin_drift, vadd, vscal, vsub, vzero in *.
  revert X xs gr gr' LX Lx A4 B4 E B8. induction n as [|n IH]; intros [|x X] [|y xs] [|g gr] [|g' gr'] LX Lx A4 B4 E B8; cbn in LX, Lx, A4, B4; try lia; [reflexivity|].
  cbn [map map2 repeat] in *. 
  assert (E0 := f_equal (hd (RtoC 0)) E). assert (E1 := f_equal (@tl C) E). assert (F0 := f_equal (hd (RtoC 0)) B8). assert (F1 := f_equal (@tl C) B8).
  cbn [hd tl] in E0, E1, F0, F1. f_equal; [|apply (IH X xs gr gr'); auto; lia].
  assert (P1 := f_equal fst E0). assert (P2 := f_equal snd E0). assert (Q1 := f_equal fst F0). assert (Q2 := f_equal snd F0).
  destruct x as (x1 & x2), y as (y1 & y2), g as (g1 & g2), g' as (h1 & h2). cbn in *.
  apply C_ext; cbn; nra.
Qed.

Theorem C60_exact : forall R0 f pr q prm fuel sh X s0 n m N K j w S v xs,
  let delta := i_delta s0 in let r := 1 - delta * w in let k := steps_to prm j in let c := n_complex q in
  let run := myula_run (mcmc_ops R0 f pr q) prm fuel (StartArray sh X) in
  convex_problem f pr n m w w -> (forall Z, length Z = n -> pr_proxf pr Z = Ok Z) -> n_lmda q <> 0 -> 0 <= delta ->
  white S n v -> tape_runs R0 f pr q prm fuel sh X s0 n N K j -> length xs = n -> gradlogpi f pr q xs None = Ok (vzero n) ->
  mean_sq S K run s0 j (stored c xs) =
    (r ^ 2) ^ k * nrm2 (vsub (stored c X) (stored c xs)) + 2 * delta * (v * INR n * INR (per_step c)) * geom (r ^ 2) k /\
  forall a, length a = n ->
    mean_dot S K run s0 j a = Re (cdot a (stored c xs)) + r ^ k * Re (cdot a (vsub (stored c X) (stored c xs))).
Proof.
  intros R0 f pr q prm fuel sh X s0 n m N K j w S v xs delta r k c run CP NP NZ Hd W TR Lx Ex.
  assert (LX := start_length _ _ _ _ _ _ _ _ _ _ _ _ _ _ _ _ _ _ CP NZ W TR).
  assert (HK : (per_step c * k <= K)%nat) by apply TR.
  assert (LA : forall Z, length Z = n -> length (next_mean f pr q delta Z) = n) by (intros; eapply next_mean_length; eauto).
  set (ys := st c xs). assert (Ly : length ys = n) by (unfold ys; rewrite st_length; auto).
  set (A' := fun Z : vec => vadd ys (vscal (RtoC r) (vsub Z ys))).
  assert (LA' : forall Z, length Z = n -> length (A' Z) = n).
  { intros Z LZ. unfold A'. rewrite vadd_length; rewrite ?vscal_length, ?vsub_length; congruence. }
  assert (CM : forall Z, length Z = n -> st c (next_mean f pr q delta Z) = A' (st c Z)).
  { intros Z LZ. rewrite (isotropic_mean f pr q n m w delta xs Z CP NP Lx Ex LZ). fold r. unfold A', ys, st. destruct c; [reflexivity|].
    clear - LZ Lx. unfold vadd, vscal, vsub. revert Z xs LZ Lx. induction n as [|n IH]; intros [|z Z] [|x xs] LZ Lx; cbn in LZ, Lx; try lia; [reflexivity|].
    cbn [map map2]. f_equal; [|apply IH; lia]. destruct z, x. apply C_ext; cbn; ring. }
  assert (HO : forall Z, length Z = n -> vsub (A' Z) ys = vscal (RtoC r) (vsub Z ys)).
  { intros Z LZ. unfold A'. clearbody ys. clear - LZ Ly. unfold vadd, vscal, vsub. revert Z ys LZ Ly.
    induction n as [|n IH]; intros [|z Z] [|x xs] LZ Lx; cbn in LZ, Lx; try lia; [reflexivity|].
    cbn [map map2]. f_equal; [|apply IH; lia]. destruct z, x. apply C_ext; cbn; ring. }
  assert (LS : length (st c X) = n) by (rewrite st_length; auto).
  assert (IT : forall h : vec -> R, expect S K (fun l => h (row_of run s0 j [] l)) =
            expect S K (fun l => h (it A' (sqrt (2 * delta)) c k (st c X) l))).
  { intros h. unfold run. rewrite (row_expect R0 f pr q prm fuel sh X s0 n m N K j w w S v h CP NZ W TR).
    apply (expect_ext S n); [intros; apply W; auto|]. intros l (L & T). f_equal.
    apply (it_st (next_mean f pr q delta) A' _ c n); auto. rewrite L. exact HK. }
  assert (Ec : sqrt (2 * delta) ^ 2 = 2 * delta) by (apply pow2_sqrt; lra).
  change (stored c xs) with ys. change (stored c X) with (st c X). split.
  - unfold mean_sq. rewrite (IT (fun z => nrm2 (vsub z ys))). 
    assert (H2 : forall Z, length Z = n -> nrm2 (vsub (A' Z) ys) = r ^ 2 * nrm2 (vsub Z ys)) by (intros Z LZ; rewrite HO, nrm2_vscal_R by auto; reflexivity).
    assert (H := second_exact A' (sqrt (2 * delta)) c S n v W LA' (r ^ 2) ys Ly H2 k K (st c X) LS HK).
    rewrite Ec in H. exact H.
  - intros a La. unfold mean_dot. rewrite (IT (fun z => Re (cdot a z))).
    rewrite <- (first_exact A' (sqrt (2 * delta)) c S n v W LA' r ys a Ly La HO k K (st c X) LS HK).
    rewrite <- (expect_const S K (Re (cdot a ys))) by apply W. rewrite <- expect_plus.
    apply (expect_ext S n); [intros; apply W; auto|]. intros l (L & T).
    assert (LI : length (it A' (sqrt (2 * delta)) c k (st c X) l) = n).
    { rewrite <- (it_st (next_mean f pr q delta) A' _ c n) by (auto; rewrite L; exact HK). rewrite st_length.
      destruct TR as (GR & RT & SZ & EN & NC & Hj & _ & ER). destruct (ER l L T) as (w' & E).
      destruct (run_row R0 f pr q prm n m w w N fuel sh X s0 l j w' GR RT CP NZ SZ EN NC Hj T ltac:(rewrite L; exact HK) E) as (_ & LI & _).
      exact LI. }
    rewrite cdot_vsub_r by congruence. rewrite Re_minus. ring.
Qed.
Print Assumptions C60_exact.

(** the mean square settles at m2/(w (1 - delta w/2)); without discretisation
    it would be m2/w *)
Theorem C60_exact_limit : forall w delta m2 d0, 0 < w -> 0 < delta -> delta * w < 2 ->
  is_lim_seq (fun k => ((1 - delta * w) ^ 2) ^ k * d0 + 2 * delta * m2 * geom ((1 - delta * w) ^ 2) k)
    (m2 / w / (1 - delta * w / 2)).
Proof.
  intros w delta m2 d0 Hw Hd HS. set (r := (1 - delta * w) ^ 2).
  assert (D : 0 < delta * w) by (apply Rmult_lt_0_compat; auto).
  assert (R0 : 0 <= r) by apply pow2_ge_0. assert (R1 : r < 1) by (unfold r; nra).
  assert (P : is_lim_seq (fun k => r ^ k) 0) by (apply is_lim_seq_geom; rewrite Rabs_pos_eq; auto).
  apply (is_lim_seq_ext (fun k => r ^ k * d0 + 2 * delta * m2 / (1 - r) * (1 - r ^ k))).
  { intros k. rewrite <- (geom_value r k). field. lra. }
  replace (m2 / w / (1 - delta * w / 2)) with (0 * d0 + 2 * delta * m2 / (1 - r) * (1 - 0)).
  2:{ assert (1 - r <> 0) by lra. unfold r in *. field. repeat split; lra. }
  apply is_lim_seq_plus'; [apply is_lim_seq_mult'; [exact P|apply is_lim_seq_const]|].
  apply is_lim_seq_mult'; [apply is_lim_seq_const|]. apply is_lim_seq_minus'; [apply is_lim_seq_const|exact P].
Qed.
Print Assumptions C60_exact_limit.

(** ** such runs exist *)

(** a generator that reads a tape, and zeros after its end *)
Definition tape_rng : rng (list (list R)) :=
  mkRng (fun n g => (firstn n (hd [] g ++ repeat 0 n), tl g)) (fun n g => (repeat 0 n, g)) (fun g => (1 / 2, g)).

Theorem C60_runs_exist : forall f pr q prm n m lo hi delta fuel X N K j,
  convex_problem f pr n m lo hi -> 0 < n_lmda q -> (forall x, length x = n -> exists r, pr_prior pr x = Ok r) -> length X = n ->
  p_nsamples prm = Z.of_nat N -> p_track prm = ["logposterior"; "L2"; "prior"; "chain"]%string ->
  (total_iters (p_nburn prm) (p_ngap prm) N <= fuel)%nat -> (j < N)%nat ->
  (per_step (n_complex q) * steps_to prm j <= K)%nat ->
  exists s0, new_sampler (mcmc_ops tape_rng f pr q) prm delta = Ok s0 /\ i_delta s0 = delta /\
    tape_runs tape_rng f pr q prm fuel [n] X s0 n N K j.
Proof.
  intros f pr q prm n m lo hi delta fuel X N K j CP Hl PT LX EN ET HF Hj HK.
  assert (GR : good_rng tape_rng).
  { intros k g. cbn. rewrite repeat_length. split; [|reflexivity]. rewrite firstn_length, app_length, repeat_length. lia. }
  assert (RT : reads_tape tape_rng n).
  { intros w g Lw. cbn. rewrite firstn_app, Lw, Nat.sub_diag, <- Lw, firstn_all. cbn. rewrite app_nil_r. reflexivity. }
  assert (EZ : Z.to_nat (p_nsamples prm) = N) by lia.
  assert (RE := fun g => C56_runs_exist _ tape_rng f pr q prm n m lo hi delta g fuel X GR CP Hl PT LX ltac:(lia) ET ltac:(rewrite EZ; exact HF)).
  destruct (RE []) as (s0 & _ & _ & E0 & SZ & ED & _). exists s0. split; [exact E0|]. split; [exact ED|].
  rewrite EZ in SZ. split; [exact GR|]. split; [exact RT|]. split; [exact SZ|]. split; [exact EN|].
  split; [|split; [exact Hj|split; [exact HK|]]].
  - destruct (C44_new_sampler _ _ _ _ _ _ _ prm delta s0 E0) as (_ & _ & _ & _ & K5 & _). rewrite K5, ET. cbn. discriminate.
  - intros l _ _. destruct (RE l) as (s1 & w' & _ & E1 & _ & _ & E2 & _). rewrite E0 in E1. injection E1 as <-. exists w'. exact E2.
Qed.
Print Assumptions C60_runs_exist.

(** ** the density recorded in logPi is not the one the chain follows *)

(** the density whose logarithm is stored in logPi, for one real parameter
    predicted directly *)
Definition recorded_density (f : forward_op) (pr : prior_obj) (q : numparams) (x : R) : R :=
  match logpi f pr q [RtoC x] [RtoC x] with Ok (a, _, _) => exp (Re a) | Raise _ => 0 end.
(** mean square distance to [c] under an unnormalised density *)
Definition density_variance (p : R -> R) (c v : R) : Prop :=
  is_lim (fun b => RInt (fun x => (x - c) ^ 2 * p x) (c - b) (c + b) / RInt p (c - b) (c + b)) p_infty v.

Lemma ex_RInt_cont : forall (g : R -> R) a b, (forall x, continuous g x) -> ex_RInt g a b.
Proof. intros g a b H. apply (ex_RInt_continuous (V := R_CompleteNormedModule)). intros; apply H. Qed.

Lemma gaussian_variance : forall w c, 0 < w -> density_variance (fun x => exp (- (w * (x - c) ^ 2))) c (/ (2 * w)).
Proof.
  intros w c Hw. unfold density_variance. set (e := fun x => exp (- (w * (x - c) ^ 2))).
  assert (DE : forall x, is_derive e x (- (2 * w * (x - c)) * e x)).
  { intros x. unfold e. auto_derive; [auto|]. cbn. change (x + - c) with (x - c). ring. }
  assert (CE : forall x, continuous e x) by (intros x; apply (ex_derive_continuous e); eexists; apply DE).
  assert (C2 : forall x, continuous (fun x => (x - c) ^ 2 * e x) x).
  { intros x. apply (ex_derive_continuous (fun x => (x - c) ^ 2 * e x)). unfold e. auto_derive. auto. }
  set (I0 := fun b => RInt e (c - b) (c + b)). set (I2 := fun b => RInt (fun x => (x - c) ^ 2 * e x) (c - b) (c + b)).
  assert (E : forall b, I0 b - 2 * w * I2 b = 2 * b * exp (- (w * b ^ 2))).
  { intros b. unfold I0, I2.
    assert (H : is_RInt (fun x => e x - 2 * w * ((x - c) ^ 2 * e x)) (c - b) (c + b)
       (minus (G := R_AbelianGroup) ((c + b - c) * e (c + b)) ((c - b - c) * e (c - b)))).
    { apply (is_RInt_derive (V := R_CompleteNormedModule) (fun x => (x - c) * e x)).
      - intros x _. unfold e. auto_derive; [auto|]. cbn. change (x + - c) with (x - c). ring.
      - intros x _. apply (continuous_minus (V := R_NormedModule)); [apply CE|].
        apply (continuous_mult (K := R_AbsRing) (fun _ => 2 * w)); [apply continuous_const|apply C2]. }
    assert (H' : is_RInt (fun x => e x - 2 * w * ((x - c) ^ 2 * e x)) (c - b) (c + b) (RInt e (c - b) (c + b) - 2 * w * RInt (fun x => (x - c) ^ 2 * e x) (c - b) (c + b))).
    { apply (is_RInt_minus (V := R_NormedModule)); [apply (RInt_correct (V := R_CompleteNormedModule)), ex_RInt_cont, CE|].
      apply (is_RInt_scal (V := R_NormedModule) (fun x => (x - c) ^ 2 * e x) _ _ (2 * w)). apply (RInt_correct (V := R_CompleteNormedModule)), ex_RInt_cont, C2. }
    apply (is_RInt_unique (V := R_CompleteNormedModule)) in H. apply (is_RInt_unique (V := R_CompleteNormedModule)) in H'.
    rewrite H' in H. rewrite H. unfold minus, plus, opp; cbn. unfold e.
    replace (c + b - c) with b by ring. replace (c - b - c) with (- b) by ring. replace ((- b) ^ 2) with (b ^ 2) by ring.
    replace (b * (b * 1)) with (b ^ 2) by ring. replace (- b * (- b * 1)) with (b ^ 2) by ring. ring. }
  assert (PE : forall x, 0 < e x) by (intros; apply exp_pos).
  assert (P1 : 0 < I0 1) by (apply RInt_gt_0; [lra|intros; apply PE|intros; apply CE]).
  assert (MONO : forall b, 1 <= b -> I0 1 <= I0 b).
  { intros b Hb. unfold I0.
    assert (Q : RInt e (c - b) (c + b) = RInt e (c - b) (c - 1) + RInt e (c - 1) (c + 1) + RInt e (c + 1) (c + b)).
    { assert (Q1 := RInt_Chasles (V := R_CompleteNormedModule) e (c - b) (c - 1) (c + 1) ltac:(apply ex_RInt_cont, CE) ltac:(apply ex_RInt_cont, CE)).
      assert (Q2 := RInt_Chasles (V := R_CompleteNormedModule) e (c - b) (c + 1) (c + b) ltac:(apply ex_RInt_cont, CE) ltac:(apply ex_RInt_cont, CE)).
      change (RInt e (c - b) (c - 1) + RInt e (c - 1) (c + 1) = RInt e (c - b) (c + 1)) in Q1.
      change (RInt e (c - b) (c + 1) + RInt e (c + 1) (c + b) = RInt e (c - b) (c + b)) in Q2. lra. }
    rewrite Q.
    assert (0 <= RInt e (c - b) (c - 1)) by (apply RInt_ge_0; [lra|apply ex_RInt_cont, CE|intros; left; apply PE]).
    assert (0 <= RInt e (c + 1) (c + b)) by (apply RInt_ge_0; [lra|apply ex_RInt_cont, CE|intros; left; apply PE]). lra. }
  assert (TAIL : forall b, 1 <= b -> 0 <= b * exp (- (w * b ^ 2)) <= / w * / b).
  { intros b Hb. assert (X := exp_pos (- (w * b ^ 2))). split; [apply Rmult_le_pos; lra|].
    assert (Y := exp_ineq1_le (w * b ^ 2)). assert (Z : exp (w * b ^ 2) * exp (- (w * b ^ 2)) = 1) by (rewrite <- exp_plus, Rplus_opp_r; apply exp_0).
    assert (B2 : 0 < b * b) by nra. assert (WB : 0 < w * b ^ 2) by (apply Rmult_lt_0_compat; [auto|cbn; lra]).
    apply Rmult_le_reg_l with (w * b); [apply Rmult_lt_0_compat; lra|].
    replace (w * b * (/ w * / b)) with 1 by (field; lra).
    replace (w * b * (b * exp (- (w * b ^ 2)))) with ((w * b ^ 2) * exp (- (w * b ^ 2))) by ring. rewrite <- Z.
    apply Rmult_le_compat_r; lra. }
  apply (is_lim_le_le_loc (fun b => / (2 * w) - / w * / w * / I0 1 * / b) (fun _ => / (2 * w))).
  - exists 1. intros b Hb. assert (Pb := MONO b ltac:(lra)). assert (Q : 0 < I0 b) by lra. specialize (E b). specialize (TAIL b ltac:(lra)).
    change (/ (2 * w) - / w * / w * / I0 1 * / b <= I2 b / I0 b <= / (2 * w)).
    assert (V : I2 b / I0 b = / (2 * w) - / w * (b * exp (- (w * b ^ 2))) * / I0 b).
    { replace (I2 b) with ((I0 b - 2 * b * exp (- (w * b ^ 2))) / (2 * w)) by (rewrite <- E; field; lra). field. lra. }
    rewrite V. assert (Iw : 0 < / w) by (apply Rinv_0_lt_compat; auto). assert (Ib : 0 < / I0 b) by (apply Rinv_0_lt_compat; auto).
    assert (I1 : / I0 b <= / I0 1) by (apply Rinv_le_contravar; auto). 
    set (t := b * exp (- (w * b ^ 2))) in *. assert (B0 : 0 < / b) by (apply Rinv_0_lt_compat; lra).
    split.
    + assert (/ w * t * / I0 b <= / w * (/ w * / b) * / I0 1); [|lra].
      apply Rmult_le_compat; [apply Rmult_le_pos; lra|lra|apply Rmult_le_compat_l; lra|exact I1].
    + assert (0 <= / w * t * / I0 b) by (apply Rmult_le_pos; [apply Rmult_le_pos|]; lra). lra.
  - replace (Finite (/ (2 * w))) with (Rbar_minus (/ (2 * w)) (Rbar_mult (/ w * / w * / I0 1) 0)) by (cbn; f_equal; ring).
    apply is_lim_minus'; [apply is_lim_const|].
    replace (/ w * / w * / I0 1 * 0) with (real (Rbar_mult (/ w * / w * / I0 1) 0)) by reflexivity.
    apply (is_lim_scal_l (fun b => / b) (/ w * / w * / I0 1) p_infty 0).
    apply (is_lim_inv (fun b => b) p_infty p_infty); [apply is_lim_id|discriminate].
  - apply is_lim_const.
Qed.

(** one parameter observed directly with weight 1 and no regulariser: the
    density of logPi has variance 1/2; a MYULA chain settles at 1/(1 - delta/2),
    whatever the start *)
Theorem C60_target_refuted : exists f pr q,
  convex_problem f pr 1 1 1 1 /\
  density_variance (recorded_density f pr q) 1 (1 / 2) /\
  forall delta, 0 < delta <= 1 -> exists k0, forall R0 prm fuel sh X s0 N K j S,
    i_delta s0 = delta -> white S 1 1 -> tape_runs R0 f pr q prm fuel sh X s0 1 N K j -> (k0 <= steps_to prm j)%nat ->
    3 / 4 < mean_sq S K (myula_run (mcmc_ops R0 f pr q) prm fuel (StartArray sh X)) s0 j [RtoC 1].
Proof.
  set (f := weighted_fwd 1). set (pr := mkPrior (fun _ => Ok 0) (fun X => soft X (TScal 0))). set (q := mkNum 1 1 1 false).
  exists f, pr, q. assert (CP : convex_problem f pr 1 1 1 1) by (apply weighted_problem; lra). split; [exact CP|]. split.
  - assert (ED : forall x, exp (- (1 * (x - 1) ^ 2)) = recorded_density f pr q x).
    { intros x. unfold recorded_density. cbn. f_equal. ring. }
    assert (GV := gaussian_variance 1 1 Rlt_0_1). replace (/ (2 * 1)) with (1 / 2) in GV by field. unfold density_variance in *.
    apply (is_lim_ext (fun b => RInt (fun x => (x - 1) ^ 2 * exp (- (1 * (x - 1) ^ 2))) (1 - b) (1 + b) / RInt (fun x => exp (- (1 * (x - 1) ^ 2))) (1 - b) (1 + b))); [|exact GV].
    intros b. apply (f_equal2 Rdiv); apply RInt_ext; intros x _; rewrite ED; reflexivity.
  - intros delta (D0 & D1).
    assert (L := C60_exact_limit 1 delta 1 0 Rlt_0_1 D0 ltac:(lra)).
    assert (HL : 1 < 1 / 1 / (1 - delta * 1 / 2)).
    { unfold Rdiv. rewrite Rinv_1, !Rmult_1_l, !Rmult_1_r. rewrite <- Rinv_1 at 1. apply Rinv_lt_contravar; lra. }
    apply is_lim_seq_spec in L. destruct (L (mkposreal (1 / 4) ltac:(lra))) as (k0 & HK0). exists k0.
    intros R0 prm fuel sh X s0 N K j S Ed W TR Hj. specialize (HK0 (steps_to prm j) Hj). cbn [pos] in HK0.
    apply Rabs_def2 in HK0. destruct HK0 as (_ & HK0).
    assert (NP : forall Z, length Z = 1%nat -> pr_proxf pr Z = Ok Z) by (intros Z _; apply soft_zero).
    assert (EG : gradlogpi f pr q [RtoC 1] None = Ok (vzero 1)).
    { unfold gradlogpi. rewrite (NP [RtoC 1] eq_refl). cbn. unfold vzero. cbn. do 2 f_equal. cplx. }
    destruct (C60_exact R0 f pr q prm fuel sh X s0 1 1 N K j 1 S 1 [RtoC 1] CP NP ltac:(cbn; lra) ltac:(lra) W TR eq_refl EG) as (E & _).
    change (n_complex q) with false in E. cbn [stored map] in E. change (RtoC (Re (RtoC 1))) with (RtoC 1) in E. rewrite E, Ed.
    cbn [per_step INR]. set (r := (1 - delta * 1) ^ 2) in *.
    assert (PR : 0 <= r ^ steps_to prm j) by (apply pow_le, pow2_ge_0).
    assert (PN := nrm2_nonneg (vsub (map (fun u => RtoC (Re u)) X) [RtoC 1])).
    assert (0 <= r ^ steps_to prm j * nrm2 (vsub (map (fun u => RtoC (Re u)) X) [RtoC 1])) by (apply Rmult_le_pos; auto).
    rewrite !Rmult_1_r in *. lra.
Qed.
Print Assumptions C60_target_refuted.

(** fair coin noise, delta = 1/2, start at the datum: the second row has mean
    square 5/4 *)
Definition coin : law := [(1 / 2, [1]); (1 / 2, [-1])].
Lemma coin_white : white coin 1 1.
Proof.
  split; [|split; [|split]].
  - intros pw [<-|[<-|[]]]; cbn; split; auto; lra.
  - unfold mean, coin; cbn. lra.
  - intros [|i] Hi; [|lia]. unfold mean, coin; cbn. lra.
  - unfold mean, coin; cbn. lra.
Qed.
Example C60_case : let f := weighted_fwd 1 in let pr := mkPrior (fun _ => Ok 0) (fun X => soft X (TScal 0)) in
  let q := mkNum 1 1 1 false in
  let prm := {| p_nsamples := 2; p_nburn := 0; p_ngap := 0; p_verbosity := 0; p_track := ["logposterior"; "L2"; "prior"; "chain"]%string |} in
  exists s0, new_sampler (mcmc_ops tape_rng f pr q) prm (1 / 2) = Ok s0 /\
    mean_sq coin 2 (myula_run (mcmc_ops tape_rng f pr q) prm 2 (StartArray [1%nat] [RtoC 1])) s0 1 [RtoC 1] = 5 / 4.
Proof.
  intros f pr q prm. assert (CP : convex_problem f pr 1 1 1 1) by (apply weighted_problem; lra).
  destruct (C60_runs_exist f pr q prm 1 1 1 1 (1 / 2) 2 [RtoC 1] 2 2 1 CP ltac:(cbn; lra) ltac:(intros; eexists; reflexivity) eq_refl eq_refl eq_refl
    ltac:(vm_compute; lia) ltac:(lia) ltac:(vm_compute; lia)) as (s0 & E0 & ED & TR). exists s0. split; [exact E0|].
  assert (NP : forall Z, length Z = 1%nat -> pr_proxf pr Z = Ok Z) by (intros Z _; apply soft_zero).
  assert (EG : gradlogpi f pr q [RtoC 1] None = Ok (vzero 1)).
  { unfold gradlogpi. rewrite (NP [RtoC 1] eq_refl). cbn. unfold vzero. cbn. do 2 f_equal. cplx. }
  destruct (C60_exact tape_rng f pr q prm 2 [1%nat] [RtoC 1] s0 1 1 2 2 1 1 coin 1 [RtoC 1] CP NP ltac:(cbn; lra) ltac:(lra) coin_white TR eq_refl EG) as (E & _).
  change (n_complex q) with false in E. cbn [stored map] in E. change (RtoC (Re (RtoC 1))) with (RtoC 1) in E. rewrite E, ED.
  change (steps_to prm 1) with 2%nat. cbn [per_step INR geom].
  replace (nrm2 (vsub [RtoC 1] [RtoC 1])) with 0; [field|]. unfold vsub. cbn [map2]. rewrite nrm2_cons. cbn. unfold nrm2. cbn. ring.
Qed.
