(** C69: the law of MYULA chains. *)
From Coq Require Import List ZArith Lia Bool Reals Lra Psatz String.
From Coquelicot Require Import Coquelicot.
From Verif Require Import PyBase PyBaseFacts CVec Thresh ThreshSpec ThreshProof OpSpec Utils UtilsProof Prior PriorProof Forward
  McmcSpec FwdProof Sampler SamplerSpec SamplerFacts ScheduleProof SamplerMain Mcmc StepProof P_Samplers P_Mcmc P_Works StableProof P_Stable
  SkDivProof MomentSpec MomentProof P_Moments ErgSpec ErgProof.
Import ListNotations.
Notation length := List.length.
Open Scope R_scope.

(** the problems considered: convex with curvature between lo > 0 and hi, steps
    in the range of C56, random vectors of a finite law *)
Definition settling (f : forward_op) (pr : prior_obj) (q : numparams) (n m : nat) (lo hi delta : R) (S : law) (v : R) : Prop :=
  convex_problem f pr n m lo hi /\ 0 < lo <= hi /\ 0 < n_lmda q /\ 0 < delta /\ delta * (/ n_lmda q + hi) < 2 /\ white S n v.
(** rate of the distance *)
Definition drate (q : numparams) (delta lo hi : R) : R := sqrt (rate (n_lmda q) delta lo hi).
(** bound on the mean square distance of a settled chain from the centre *)
Definition settled_spread (q : numparams) (n : nat) (lo hi delta v : R) : R :=
  2 * delta * (v * INR n * INR (per_step (n_complex q))) / (1 - rate (n_lmda q) delta lo hi).
(** where the drift vanishes *)
Definition centre (f : forward_op) (pr : prior_obj) (q : numparams) (n : nat) (xs : vec) : Prop :=
  length xs = n /\ gradlogpi f pr q xs None = Ok (vzero n).

Lemma step_value : forall f pr q n m lo hi delta R0 X l, convex_problem f pr n m lo hi -> n_lmda q <> 0 ->
  good_rng R0 -> reads_tape R0 n -> length X = n -> tape_of n (per_step (n_complex q)) l ->
  next_sample R0 f pr q delta X l = Ok (vadd (next_mean f pr q delta X) (vscal (RtoC (sqrt (2 * delta))) (noise_of (n_complex q) l))).
Proof.
  intros f pr q n m lo hi delta R0 X l CP Hl GR RT LX T.
  destruct (problem_parts f pr q n m lo hi X CP LX) as (d & gr & p & A1 & A2 & A3 & A4 & A5 & A6 & A7 & A8).
  unfold next_sample. rewrite A1. cbn [rbind]. rewrite A2. cbn [rbind]. rewrite A3. cbn [rbind].
  destruct (C12_step _ R0 f pr q delta X d p gr l n GR (proj1 CP) Hl LX A1 A3 A2 A5 A4) as (gl & B1 & _ & _ & B4).
  rewrite A6 in B1. injection B1 as <-. assert (N := noise_tape R0 (n_complex q) n l [] RT T). rewrite app_nil_r in N. destruct N as (N1 & _). rewrite N1 in B4. rewrite B4. reflexivity.
Qed.

Section Settling.
Variables (f : forward_op) (pr : prior_obj) (q : numparams) (n m : nat) (lo hi delta : R) (S : law) (v : R) (xs : vec).
Hypothesis SE : settling f pr q n m lo hi delta S v.
Hypothesis CE : centre f pr q n xs.
Notation A := (next_mean f pr q delta).
Notation c := (sqrt (2 * delta)).
Notation b := (n_complex q).
Notation r := (rate (n_lmda q) delta lo hi).

Lemma se_parts : convex_problem f pr n m lo hi /\ lo <= hi /\ 0 < n_lmda q /\ 0 < delta /\ delta * (/ n_lmda q + hi) <= 2 /\ white S n v /\ 0 <= r < 1.
Proof.
  destruct SE as (CP & (Lo & LH) & Hl & Hd & HS & W).
  assert (Q : 0 <= r < 1); [|do 6 (split; [first [assumption | lra]|]); assumption].
  destruct (C56_rate (n_lmda q) delta lo hi Hl ltac:(lra) ltac:(lra) ltac:(lra)) as ((R1 & R2) & R3 & _). specialize (R3 Lo Hd HS). lra.
Qed.
Lemma se_W : white S n v. Proof. apply se_parts. Qed.
Lemma se_r : 0 <= r < 1. Proof. apply se_parts. Qed.
Lemma se_A : forall X, length X = n -> length (A X) = n.
Proof. destruct se_parts as (CP & _). intros; eapply next_mean_length; eauto. Qed.
Lemma se_CT : forall X Y, length X = n -> length Y = n -> nrm2 (vsub (A X) (A Y)) <= r * nrm2 (vsub X Y).
Proof. destruct se_parts as (CP & LH & Hl & Hd & HS & _). intros X Y LX LY. eapply next_mean_contracts; eauto; lra. Qed.
Lemma se_fix : A xs = xs. Proof. destruct CE. eapply next_mean_fixed; eauto. Qed.
Lemma se_spread : spread c b n v r = settled_spread q n lo hi delta v.
Proof. unfold spread, settled_spread. rewrite pow2_sqrt; [reflexivity|]. destruct se_parts as (_ & _ & _ & Hd & _). lra. Qed.

Lemma next_sample_value : forall R0 X l, good_rng R0 -> reads_tape R0 n -> length X = n -> tape_of n (per_step b) l ->
  next_sample R0 f pr q delta X l = Ok (vadd (A X) (vscal (RtoC c) (noise_of b l))).
Proof. destruct se_parts as (CP & _ & Hl & _). intros. apply (step_value f pr q n m lo hi); auto; lra. Qed.
Lemma after_step_value : forall R0 X h, good_rng R0 -> reads_tape R0 n -> length X = n ->
  after_step R0 f pr q delta S h X = after A c b S 1 h X.
Proof.
  intros R0 X h GR RT LX. unfold after_step, after. rewrite Nat.mul_1_r. apply (expect_ext S n); [intros; apply se_W; auto|]. intros l T.
  rewrite next_sample_value by auto. reflexivity.
Qed.
Lemma stored_lipschitz : forall C h, lipschitz n C h -> lipschitz n C (fun x => h (stored b x)).
Proof.
  intros C h (C0 & H). split; [exact C0|]. intros x y Lx Ly. assert (L : forall z, length (stored b z) = length z) by (intros z; apply st_length).
  eapply Rle_trans; [apply H; rewrite L; auto|]. apply Rmult_le_compat_l; [exact C0|]. apply sqrt_le_1_alt. apply (st_closer b x y). congruence.
Qed.
Lemma row_after : forall R0 prm fuel sh X s0 N K j h, i_delta s0 = delta -> tape_runs R0 f pr q prm fuel sh X s0 n N K j ->
  mean_at S K (myula_run (mcmc_ops R0 f pr q) prm fuel (StartArray sh X)) s0 j h = after A c b S (steps_to prm j) (fun x => h (stored b x)) X.
Proof.
  intros R0 prm fuel sh X s0 N K j h ED TR. destruct se_parts as (CP & _ & Hl & _ & _ & W & _). unfold mean_at.
  rewrite (row_expect R0 f pr q prm fuel sh X s0 n m N K j lo hi S v h CP ltac:(lra) W TR). rewrite ED.
  apply (after_more A c b S n v xs W (proj1 CE) (steps_to prm j) K (fun x => h (stored b x))). apply TR.
Qed.
Definition the_law := settled A c b S xs.
Lemma the_law_ok : law_of_vectors n the_law.
Proof.
  assert (W := se_W). assert (Q := se_r). destruct CE as (Lx & _). unfold the_law. split; [|split].
  - eapply settled_const; eauto using se_A, se_CT, se_fix.
  - intros. eapply settled_lin; eauto using se_A, se_CT, se_fix.
  - intros. eapply settled_le; eauto using se_A, se_CT, se_fix.
Qed.
Lemma the_law_stationary : forall R0, good_rng R0 -> reads_tape R0 n -> stationary R0 f pr q delta S n the_law.
Proof.
  intros R0 GR RT C h H. assert (W := se_W). assert (Q := se_r). destruct CE as (Lx & _). unfold the_law.
  rewrite <- (settled_step A c b S n v r xs W se_A Q se_CT Lx se_fix C h H). symmetry.
  eapply settled_ext; eauto using se_A, se_CT, se_fix.
  - exact (after_lipschitz A c b S n v r xs W se_A Q se_CT Lx 1 C h H).
  - intros x L. symmetry. apply after_step_value; auto.
Qed.
Lemma the_law_unique : forall R0 mu, good_rng R0 -> reads_tape R0 n -> law_of_vectors n mu -> stationary R0 f pr q delta S n mu ->
  forall C h, lipschitz n C h -> mu h = the_law h.
Proof.
  intros R0 mu GR RT (U1 & UL & UM) US. assert (W := se_W). assert (Q := se_r). destruct CE as (Lx & _). 
  apply (settled_unique A c b S n v r xs W se_A Q se_CT Lx se_fix mu U1 UL UM).
  intros C h H. rewrite <- (US C h H).
  assert (L1 : lipschitz n (C * rho r ^ 1) (after A c b S 1 h)) by exact (after_lipschitz A c b S n v r xs W se_A Q se_CT Lx 1 C h H).
  assert (L2 : lipschitz n (C * rho r ^ 1) (after_step R0 f pr q delta S h)).
  { destruct L1 as (P & L1). split; [exact P|]. intros x y LX LY. rewrite !after_step_value by auto. auto. }
  apply Rle_antisym; eapply UM; eauto; intros x L; rewrite after_step_value by auto; lra.
Qed.
End Settling.

(** *** the means of the rows settle, at the rate of the distances, whatever the
    start, the schedule and the generator *)
Theorem C69_settles : forall f pr q n m lo hi delta S v xs, settling f pr q n m lo hi delta S v -> centre f pr q n xs ->
  exists mu, law_of_vectors n mu /\ (forall R0, good_rng R0 -> reads_tape R0 n -> stationary R0 f pr q delta S n mu) /\
  forall R0 prm fuel sh X s0 N K j A h, i_delta s0 = delta -> tape_runs R0 f pr q prm fuel sh X s0 n N K j -> lipschitz n A h ->
    Rabs (mean_at S K (myula_run (mcmc_ops R0 f pr q) prm fuel (StartArray sh X)) s0 j h - mu (fun x => h (stored (n_complex q) x))) <=
    A * drate q delta lo hi ^ steps_to prm j * (2 * dist X xs + sqrt (settled_spread q n lo hi delta v)).
Proof.
  intros f pr q n m lo hi delta S v xs SE CE. exists (the_law f pr q delta S xs).
  split; [eapply the_law_ok; eauto|]. split; [intros; eapply the_law_stationary; eauto|].
  intros R0 prm fuel sh X s0 N K j C h ED TR H. destruct (se_parts _ _ _ _ _ _ _ _ _ _ SE) as (CP & _ & Hl & _ & _ & W & Q).
  assert (LX := start_length R0 f pr q prm fuel sh X s0 n m N K j lo hi S v CP ltac:(lra) W TR). assert (Lx := proj1 CE).
  rewrite (row_after f pr q n m lo hi delta S v xs SE CE R0 prm fuel sh X s0 N K j h ED TR). rewrite <- (se_spread f pr q n m lo hi delta S v SE).
  apply (settled_rate (next_mean f pr q delta) (sqrt (2 * delta)) (n_complex q) S n v (rate (n_lmda q) delta lo hi) xs W
    (se_A _ _ _ _ _ _ _ _ _ _ SE) Q (se_CT _ _ _ _ _ _ _ _ _ _ SE) Lx (se_fix f pr q n delta xs CE)); auto.
  apply stored_lipschitz; auto.
Qed.
Print Assumptions C69_settles.

(** *** it is the only law that one step of the package leaves as it is *)
Theorem C69_unique : forall f pr q n m lo hi delta S v R0 mu mu', settling f pr q n m lo hi delta S v -> good_rng R0 -> reads_tape R0 n ->
  law_of_vectors n mu -> stationary R0 f pr q delta S n mu -> law_of_vectors n mu' -> stationary R0 f pr q delta S n mu' ->
  forall A h, lipschitz n A h -> mu h = mu' h.
Proof.
  intros f pr q n m lo hi delta S v R0 mu mu' SE GR RT L1 S1 L2 S2 C h H. assert (SE' := SE). destruct SE' as (CP & (Lo & LH) & Hl & _).
  destruct (C60_centre f pr q n m lo hi CP LH Lo Hl) as (xs & Lx & Ex & _). assert (CE : centre f pr q n xs) by (split; auto).
  rewrite (the_law_unique f pr q n m lo hi delta S v xs SE CE R0 mu GR RT L1 S1 C h H).
  symmetry. apply (the_law_unique f pr q n m lo hi delta S v xs SE CE R0 mu' GR RT L2 S2 C h H).
Qed.
Print Assumptions C69_unique.

Lemma steps_to_grow : forall prm i j, (i < j)%nat -> (steps_to prm i + (j - i) <= steps_to prm j)%nat.
Proof.
  intros prm i j Hij. unfold steps_to. assert (P := save_iter_nonneg (p_nburn prm) (p_ngap prm) i).
  assert (G : forall d, (save_iter (p_nburn prm) (p_ngap prm) i + Z.of_nat d <= save_iter (p_nburn prm) (p_ngap prm) (i + d))%Z).
  { induction d as [|d IH]; [rewrite Nat.add_0_r; lia|].
    assert (Q1 := save_iter_lt (p_nburn prm) (p_ngap prm) (i + d) (i + Datatypes.S d) ltac:(lia)). lia. }
  specialize (G (j - i)%nat). replace (i + (j - i))%nat with j in G by lia. lia.
Qed.

(** *** the average over the recorded rows: its mean square error is at most a
    constant over the number of rows *)
Theorem C69_average : forall f pr q n m lo hi delta S v xs R1 mu, settling f pr q n m lo hi delta S v -> centre f pr q n xs ->
  good_rng R1 -> reads_tape R1 n -> law_of_vectors n mu -> stationary R1 f pr q delta S n mu ->
  forall R0 prm fuel sh X s0 N K A h, i_delta s0 = delta -> (0 < N)%nat -> (forall j, (j < N)%nat -> tape_runs R0 f pr q prm fuel sh X s0 n N K j) ->
  lipschitz n A h ->
  average_error S K (myula_run (mcmc_ops R0 f pr q) prm fuel (StartArray sh X)) s0 N h (mu (fun x => h (stored (n_complex q) x))) <=
  2 / (1 - drate q delta lo hi) * (A ^ 2 * (8 * nrm2 (vsub X xs) + 10 * settled_spread q n lo hi delta v)) / INR N.
Proof.
  intros f pr q n m lo hi delta S v xs R1 mu SE CE GR RT LM SM R0 prm fuel sh X s0 N K C h ED HN TR H.
  destruct (se_parts _ _ _ _ _ _ _ _ _ _ SE) as (CP & _ & Hl & _ & _ & W & Q).
  assert (LX := start_length R0 f pr q prm fuel sh X s0 n m N K 0%nat lo hi S v CP ltac:(lra) W (TR 0%nat HN)).
  assert (HS := stored_lipschitz q n C h H). rewrite (the_law_unique f pr q n m lo hi delta S v xs SE CE R1 mu GR RT LM SM C _ HS).
  assert (Lx := proj1 CE). set (hs := fun x => h (stored (n_complex q) x)) in *. set (A := next_mean f pr q delta). set (c := sqrt (2 * delta)).
  assert (N0 : 0 < INR N) by (apply lt_0_INR; lia).
  assert (SQ := sum_square A c (n_complex q) S n v (rate (n_lmda q) delta lo hi) xs W (se_A _ _ _ _ _ _ _ _ _ _ SE) Q (se_CT _ _ _ _ _ _ _ _ _ _ SE) Lx (se_fix f pr q n delta xs CE)
    C hs X (steps_to prm) K HS LX).
  specialize (SQ (steps_to_grow prm) N ltac:(intros j Hj; apply (TR j Hj))).
  rewrite <- (se_spread f pr q n m lo hi delta S v SE). fold c.
  assert (E : average_error S K (myula_run (mcmc_ops R0 f pr q) prm fuel (StartArray sh X)) s0 N h (the_law f pr q delta S xs hs) =
    / INR N ^ 2 * expect S K (fun l => rsum (map (fun j => hs (it A c (n_complex q) (steps_to prm j) X l) - settled A c (n_complex q) S xs hs) (seq 0 N)) ^ 2)).
  { unfold average_error. rewrite <- expect_scal. apply (expect_ext S n); [intros; apply W; auto|]. intros l (L & T).
    assert (RW : forall j, (j < N)%nat -> h (row_of (myula_run (mcmc_ops R0 f pr q) prm fuel (StartArray sh X)) s0 j [] l) = hs (it A c (n_complex q) (steps_to prm j) X l)).
    { intros j Hj. destruct (TR j Hj) as (GR' & RT' & SZ & EN & NC & Hj' & HK & ER). destruct (ER l L T) as (w' & E).
      destruct (run_row R0 f pr q prm n m lo hi N fuel sh X s0 l j w' GR' RT' CP ltac:(lra) SZ EN NC Hj' T ltac:(rewrite L; exact HK) E) as (_ & _ & RW).
      rewrite RW, ED. reflexivity. }
    unfold average. rewrite (rsum_map_ext _ (fun j => hs (it A c (n_complex q) (steps_to prm j) X l)) (seq 0 N)) by (intros j Hj; apply in_seq in Hj; apply RW; lia).
    fold (the_law f pr q delta S xs hs) in *. change (settled A c (n_complex q) S xs hs) with (the_law f pr q delta S xs hs). set (a := the_law f pr q delta S xs hs).
    assert (ES : forall M, rsum (map (fun j => hs (it A c (n_complex q) (steps_to prm j) X l) - a) (seq 0 M)) = rsum (map (fun j => hs (it A c (n_complex q) (steps_to prm j) X l)) (seq 0 M)) - INR M * a).
    { induction M as [|M IH]; [cbn; ring|]. rewrite !seq_S, !map_app, !rsum_app, IH, S_INR. cbn [map rsum fold_right Nat.add]. ring. }
    rewrite ES. field. lra. }
  rewrite E. clear E.
  apply Rle_trans with (/ INR N ^ 2 * (INR N * (2 / (1 - rho (rate (n_lmda q) delta lo hi))) * (C ^ 2 * size c (n_complex q) n v (rate (n_lmda q) delta lo hi) xs X))).
  - apply Rmult_le_compat_l; [left; apply Rinv_0_lt_compat, pow_lt, N0|exact SQ].
  - apply Req_le. unfold size, drate. change (rho (rate (n_lmda q) delta lo hi)) with (sqrt (rate (n_lmda q) delta lo hi)).
    assert (R2 := rho_range _ Q). unfold rho in R2. field. split; lra.
Qed.
Print Assumptions C69_average.

(** hence it falls below any e > 0 for chains that are long enough, and so does
    the probability that the average is off by e *)
Lemma average_prob : forall S n v K a e (F : list (list R) -> R) (dec : list (list R) -> bool), white S n v -> 0 < e ->
  (forall l, dec l = true -> e <= Rabs (F l - a)) -> prob S K dec <= expect S K (fun l => (F l - a) ^ 2) / e ^ 2.
Proof.
  intros S n v K a e F dec W He H. unfold prob. apply Rle_trans with (expect S K (fun l => / e ^ 2 * (F l - a) ^ 2)).
  - apply (expect_le S n); [intros; apply W; auto|]. intros l _. assert (P : 0 < e ^ 2) by (apply pow_lt; exact He). destruct (dec l) eqn:D.
    + specialize (H l D). rewrite <- (Rinv_l (e ^ 2)) by lra. apply Rmult_le_compat_l; [left; apply Rinv_0_lt_compat; exact P|].
      rewrite <- (pow2_abs (F l - a)). apply pow_incr. lra.
    + apply Rmult_le_pos; [left; apply Rinv_0_lt_compat; exact P|apply pow2_ge_0].
  - rewrite expect_scal. unfold Rdiv. rewrite Rmult_comm. apply Rle_refl.
Qed.
Theorem C69_average_off : forall f pr q n m lo hi delta S v xs R1 mu, settling f pr q n m lo hi delta S v -> centre f pr q n xs ->
  good_rng R1 -> reads_tape R1 n -> law_of_vectors n mu -> stationary R1 f pr q delta S n mu ->
  forall X A e p, 0 <= A -> 0 < e -> 0 < p -> exists N0, forall R0 prm fuel sh s0 N K h off, (N0 <= N)%nat -> (0 < N)%nat -> i_delta s0 = delta ->
  (forall j, (j < N)%nat -> tape_runs R0 f pr q prm fuel sh X s0 n N K j) -> lipschitz n A h ->
  let run := myula_run (mcmc_ops R0 f pr q) prm fuel (StartArray sh X) in
  (forall l, off l = true -> e <= Rabs (average run s0 N h l - mu (fun x => h (stored (n_complex q) x)))) ->
  prob S K off <= p.
Proof.
  intros f pr q n m lo hi delta S v xs R1 mu SE CE GR RT LM SM X A e p HA He Hp.
  set (B := 2 / (1 - drate q delta lo hi) * (A ^ 2 * (8 * nrm2 (vsub X xs) + 10 * settled_spread q n lo hi delta v))).
  assert (P : 0 < e ^ 2 * p) by (apply Rmult_lt_0_compat; [apply pow_lt; exact He|exact Hp]).
  destruct (archimed (B / (e ^ 2 * p))) as (HN0 & _). set (z := up _) in HN0. exists (Z.to_nat z).
  assert (HN : B / (e ^ 2 * p) <= INR (Z.to_nat z)).
  { rewrite INR_IZR_INZ. eapply Rle_trans; [left; exact HN0|]. apply IZR_le. lia. }
  clear HN0. set (N0 := Z.to_nat z) in *.
  intros R0 prm fuel sh s0 N K h off H1 H2 ED TR H run HO.
  assert (W := se_W _ _ _ _ _ _ _ _ _ _ SE). eapply Rle_trans; [apply (average_prob S n v K _ e _ off W He HO)|].
  assert (Q := C69_average f pr q n m lo hi delta S v xs R1 mu SE CE GR RT LM SM R0 prm fuel sh X s0 N K A h ED H2 TR H). fold B in Q. fold run in Q.
  unfold average_error in Q. set (E := expect S K _) in *. assert (IN : 0 < INR N) by (apply lt_0_INR; lia).
  apply Rle_div_l; [apply pow_lt; exact He|]. eapply Rle_trans; [exact Q|]. apply Rle_div_l; [exact IN|].
  assert (INR N0 <= INR N) by (apply le_INR; exact H1). assert (Z : B / (e ^ 2 * p) <= INR N) by lra. apply Rle_div_l in Z; [lra|exact P].
Qed.
Print Assumptions C69_average_off.

(** *** the entries: parameters and their averages *)
Definition entry (i : nat) (x : vec) : R := Re (nth i x (RtoC 0)).
Lemma entry_lipschitz : forall n i, lipschitz n 1 (entry i).
Proof.
  intros n i. split; [lra|]. intros x y Lx Ly. rewrite Rmult_1_l. unfold dist.
  revert x y Lx Ly i. induction n as [|n IH]; intros [|a x] [|b y] Lx Ly i; try discriminate.
  - unfold entry. destruct i; cbn; rewrite Rminus_diag_eq, Rabs_R0 by reflexivity; apply sqrt_pos.
  - change (vsub (a :: x) (b :: y)) with ((a - b)%C :: vsub x y). rewrite ThreshProof.nrm2_cons.
    assert (P := nrm2_nonneg (vsub x y)). destruct i as [|i].
    + unfold entry. cbn [nth]. replace (Re a - Re b) with (fst (a - b)%C) by (destruct a, b; reflexivity).
      rewrite <- sqrt_Rsqr_abs. apply sqrt_le_1_alt. rewrite Cmod_sq. unfold Rsqr. assert (Q := pow2_ge_0 (snd (a - b)%C)). lra.
    + eapply Rle_trans; [apply (IH x y ltac:(cbn in Lx; lia) ltac:(cbn in Ly; lia) i)|]. apply sqrt_le_1_alt. assert (Q := pow2_ge_0 (Cmod (a - b)%C)). lra.
Qed.

Lemma nth_vadd : forall i (x y : vec), length x = length y -> entry i (vadd x y) = entry i x + entry i y.
Proof.
  induction i as [|i IH]; intros [|a x] [|b y] L; try discriminate; unfold entry in *; cbn; try lra; try (destruct a, b; cbn; lra).
  apply (IH x y). cbn in L. lia.
Qed.
Lemma nth_vscal : forall t i (x : vec), entry i (vscal (RtoC t) x) = t * entry i x.
Proof.
  intros t. induction i as [|i IH]; intros [|a x]; unfold entry in *; cbn; try lra; try (destruct a; cbn; lra). apply (IH x).
Qed.

Lemma lipschitz_ext : forall n A g h, (forall x, length x = n -> g x = h x) -> lipschitz n A g -> lipschitz n A h.
Proof. intros n A g h E (P & H). split; [exact P|]. intros x y Lx Ly. rewrite <- !E by auto. auto. Qed.
Lemma law_ext : forall n mu A g h, law_of_vectors n mu -> lipschitz n A g -> (forall x, length x = n -> g x = h x) -> mu g = mu h.
Proof.
  intros n mu A g h (_ & _ & UM) H E. assert (H' := lipschitz_ext n A g h E H).
  apply Rle_antisym; eapply UM; eauto; intros x L; rewrite E by auto; lra.
Qed.
Lemma noise_entry : forall S n v b i, white S n v -> (i < n)%nat -> expect S (per_step b) (fun l => entry i (noise_of b l)) = 0.
Proof.
  intros S n v b i W Hi. destruct W as (W1 & W2 & W3 & _).
  assert (E : forall l, tape_of n (per_step b) l -> entry i (noise_of b l) = nth i (nth 0 l []) 0).
  { intros l (L & T). unfold entry, noise_of. destruct b; cbn in L.
    - destruct l as [|a [|e [|]]]; try discriminate. cbn [nth]. assert (La : length a = n) by (apply T; cbn; auto). assert (Le : length e = n) by (apply T; cbn; auto).
      clear - La Le Hi. revert a e n La Le Hi. induction i as [|i IH]; intros [|a x] [|e y] n La Le Hi; cbn in *; try lia; [reflexivity|].
      apply (IH x y (pred n)); lia.
    - destruct l as [|a [|]]; try discriminate. cbn [nth]. assert (La : length a = n) by (apply T; cbn; auto).
      change (RtoC 0) with (RtoC 0). rewrite (map_nth RtoC a 0 i). reflexivity. }
  rewrite (expect_ext S n _ _ (fun l => nth i (nth 0 l []) 0)); [|intros; apply W1; auto|exact E].
  destruct b; cbn [per_step expect nth]; [|apply W3; exact Hi].
  assert (MX : forall g g', (forall w, g w = g' w) -> mean S g = mean S g') by (intros g g' H; unfold mean; f_equal; apply map_ext; intros (p & w); cbn [fst snd]; rewrite H; reflexivity).
  rewrite (MX _ (fun w => nth i w 0)); [apply W3; exact Hi|]. intros w.
  rewrite (MX _ (fun _ => nth i w 0 * 1)) by (intros; ring). rewrite mean_scal, W2. ring.
Qed.

(** *** the mean of the drift of the settled chain is zero in every entry *)
Theorem C69_balance : forall f pr q n m lo hi delta S v R0 mu, settling f pr q n m lo hi delta S v -> good_rng R0 -> reads_tape R0 n ->
  law_of_vectors n mu -> stationary R0 f pr q delta S n mu ->
  forall i, (i < n)%nat -> mu (fun x => match gradlogpi f pr q x None with Ok g => entry i g | Raise _ => 0 end) = 0.
Proof.
  intros f pr q n m lo hi delta S v R0 mu SE GR RT LM SM i Hi. assert (SE' := SE). destruct SE' as (CP & (Lo & LH) & Hl & Hd & _ & W).
  destruct (C60_centre f pr q n m lo hi CP LH Lo Hl) as (xs & Lx & Ex & _).
  assert (Q := se_r _ _ _ _ _ _ _ _ _ _ SE). assert (LA := se_A _ _ _ _ _ _ _ _ _ _ SE). assert (CT := se_CT _ _ _ _ _ _ _ _ _ _ SE).
  set (k := after_step R0 f pr q delta S (entry i)).
  assert (LE := entry_lipschitz n i).
  assert (Lk : lipschitz n (1 * rho (rate (n_lmda q) delta lo hi) ^ 1) k).
  { eapply lipschitz_ext; [|exact (after_lipschitz (next_mean f pr q delta) (sqrt (2 * delta)) (n_complex q) S n v _ xs W LA Q CT Lx 1 1 (entry i) LE)].
    intros x L. symmetry. apply (after_step_value f pr q n m lo hi delta S v SE); auto. }
  assert (EK : forall x, length x = n -> k x = entry i x + delta * entry i (drift f pr q x)).
  { intros x L. unfold k, after_step.
    rewrite (expect_ext S n _ _ (fun l => entry i (next_mean f pr q delta x) + sqrt (2 * delta) * entry i (noise_of (n_complex q) l))); [|intros; apply W; auto|].
    - rewrite expect_plus, expect_scal, (noise_entry S n v) by auto. rewrite expect_const by apply W. unfold next_mean.
      rewrite nth_vadd, nth_vscal; [ring|]. destruct (problem_parts f pr q n m lo hi x CP L) as (_ & _ & _ & _ & _ & _ & _ & _ & _ & L2 & _). rewrite vscal_length. congruence.
    - intros l T. rewrite (next_sample_value f pr q n m lo hi delta S v SE) by auto. rewrite nth_vadd, nth_vscal; [reflexivity|].
      rewrite vscal_length, (LA x L). symmetry. apply tape_noise_length; auto. }
  assert (EM : mu (fun x => / delta * k x + (- / delta) * entry i x) = 0).
  { rewrite (proj1 (proj2 LM) _ _ _ _ _ _ Lk LE). unfold k. rewrite (SM _ _ LE). ring. }
  rewrite <- EM. symmetry. eapply (law_ext n mu); [exact LM|apply lipschitz_lin; [exact Lk|exact LE]|].
  intros x L. rewrite EK by auto. destruct (problem_parts f pr q n m lo hi x CP L) as (_ & _ & _ & _ & _ & _ & _ & _ & E & _). rewrite E. field. lra.
Qed.
Print Assumptions C69_balance.

(** *** without curvature there may be no such law: one pixel that no path
    crosses, and a threshold of zero *)
Definition blind_meas : measurement := mkMeas (fun x => Ok (vzero 1)) (fun x => Ok (vzero 1)).
Definition blind_fwd : forward_op := mkFwd (mkData [RtoC 1] false) (scaled_identity 1 (RtoC 1)) "analysis" None (Some blind_meas) (Some 1%nat).
Definition flat_prior : prior_obj := mkPrior (fun _ => Ok 0) (fun X => soft X (TScal 0)).
Lemma blind_problem : convex_problem blind_fwd flat_prior 1 1 0 1.
Proof.
  assert (Z : forall x : vec, cdot x (vzero 1) = RtoC 0 /\ cdot (vzero 1) x = RtoC 0).
  { intros [|a [|b x]]; unfold cdot, vzero; cbn; split; try reflexivity; try (destruct a; cplx); destruct a; cplx. }
  split; [reflexivity|]. split.
  { left. split; [reflexivity|]. exists blind_meas. split; [reflexivity|]. split; [|split].
    - intros x H; eexists; split; [reflexivity|reflexivity].
    - intros x H; eexists; split; [reflexivity|reflexivity].
    - intros x y fx gy _ _ E F. cbn in E, F. injection E as <-. injection F as <-. change [RtoC 0] with (vzero 1). rewrite (proj1 (Z y)), (proj2 (Z x)). reflexivity. }
  destruct (weighted_problem 1 0 (fun _ => Ok 0) ltac:(lra) ltac:(lra)) as (_ & _ & H1 & H2 & H3 & _).
  split; [exact H1|]. split; [exact H2|]. split; [exact H3|]. split; [lra|]. split; [lra|].
  intros x fx Lx E. cbn in E. injection E as <-. assert (P := nrm2_nonneg x).
  change [RtoC 0] with (vzero 1). replace (Re (quadform (fo_invcov blind_fwd) (vzero 1))) with 0; [lra|]. unfold quadform. cbn. ring.
Qed.

(** |t - m| + ... + |t + m| *)
Fixpoint hills (m : nat) (t : R) : R := match m with O => Rabs t | Datatypes.S k => hills k t + (Rabs (t - INR m) + Rabs (t + INR m)) end.
Lemma hills_lipschitz : forall m, exists C, 0 <= C /\ forall s t, Rabs (hills m s - hills m t) <= C * Rabs (s - t).
Proof.
  induction m as [|m (C & P & H)]; [exists 1|exists (C + 2)]; (split; [lra|]); intros s t.
  - cbn [hills]. rewrite Rmult_1_l. apply Rabs_triang_inv2.
  - cbn [hills]. set (M := INR (Datatypes.S m)). specialize (H s t).
    assert (A := Rabs_triang_inv2 (s - M) (t - M)). assert (B := Rabs_triang_inv2 (s + M) (t + M)).
    replace (s - M - (t - M)) with (s - t) in A by ring. replace (s + M - (t + M)) with (s - t) in B by ring.
    apply Rabs_le_between in H. apply Rabs_le_between in A. apply Rabs_le_between in B. apply Rabs_le. lra.
Qed.
Lemma hills_step : forall m t, 1 / 2 * hills m (t + 1) + 1 / 2 * hills m (t - 1) - hills m t =
  1 / 2 * (Rabs (t + INR m + 1) - Rabs (t + INR m) - Rabs (t - INR m) + Rabs (t - INR m - 1)).
Proof.
  induction m as [|m IH]; intros t.
  - cbn [hills INR]. rewrite !Rplus_0_r, !Rminus_0_r. lra.
  - cbn [hills]. specialize (IH t). rewrite !S_INR.
    replace (t + 1 - (INR m + 1)) with (t - INR m) by ring. replace (t - 1 - (INR m + 1)) with (t - (INR m + 1) - 1) by ring.
    replace (t + 1 + (INR m + 1)) with (t + (INR m + 1) + 1) by ring. replace (t - 1 + (INR m + 1)) with (t + INR m) by ring.
    replace (t + INR m + 1) with (t + (INR m + 1)) in IH by ring. replace (t - INR m - 1) with (t - (INR m + 1)) in IH by ring. lra.
Qed.
Lemma hills_grow : forall m t, (0 < m)%nat -> hills m t + 1 - / INR m * Rabs t <= 1 / 2 * hills m (t + 1) + 1 / 2 * hills m (t - 1).
Proof.
  intros m t Hm. assert (E := hills_step m t). assert (P : 0 < INR m) by (apply lt_0_INR; lia). set (M := INR m) in *.
  assert (I := Rinv_0_lt_compat _ P).
  destruct (Rle_dec (Rabs t) M) as [L|L].
  - assert (0 <= / M * Rabs t) by (apply Rmult_le_pos; [lra|apply Rabs_pos]). apply Rabs_le_between in L.
    rewrite (Rabs_pos_eq (t + M + 1)), (Rabs_pos_eq (t + M)), (Rabs_left1 (t - M)), (Rabs_left1 (t - M - 1)) in E by lra. lra.
  - assert (1 <= / M * Rabs t) by (rewrite <- (Rinv_l M) by lra; apply Rmult_le_compat_l; lra).
    assert (0 <= Rabs (t + M + 1) - Rabs (t + M) - Rabs (t - M) + Rabs (t - M - 1)); [|lra].
    unfold Rabs in *. repeat destruct Rcase_abs; lra.
Qed.

Theorem C69_flat_refuted : exists f pr q delta S v, convex_problem f pr 1 1 0 1 /\ 0 < n_lmda q /\ 0 < delta /\ delta * (/ n_lmda q + 1) < 2 /\ white S 1 v /\
  forall R0 mu, good_rng R0 -> reads_tape R0 1 -> law_of_vectors 1 mu -> ~ stationary R0 f pr q delta S 1 mu.
Proof.
  exists blind_fwd, flat_prior, (mkNum 1 1 1 false), (1 / 2), coin, 1. split; [exact blind_problem|]. split; [cbn; lra|]. split; [lra|]. split; [cbn; lra|]. split; [exact coin_white|].
  intros R0 mu GR RT LM SM. set (q := mkNum 1 1 1 false) in *. destruct LM as (U1 & UL & UM).
  assert (LE := entry_lipschitz 1 0).
  assert (LC : lipschitz 1 0 (fun _ => 1)) by (split; [lra|]; intros; rewrite Rminus_diag_eq, Rabs_R0 by reflexivity; lra).
  assert (LB : lipschitz 1 1 (fun x => Rabs (entry 0 x))).
  { split; [lra|]. intros x y Lx Ly. eapply Rle_trans; [apply Rabs_triang_inv2|]. apply LE; auto. }
  assert (LH : forall m, exists C, lipschitz 1 C (fun x => hills m (entry 0 x))).
  { intros m. destruct (hills_lipschitz m) as (C & P & H). exists C. split; [exact P|]. intros x y Lx Ly. eapply Rle_trans; [apply H|].
    apply Rmult_le_compat_l; [exact P|]. eapply Rle_trans; [apply LE; auto|]. lra. }
  assert (V : forall h x, length x = 1%nat -> after_step R0 blind_fwd flat_prior q (1 / 2) coin (fun y => h (entry 0 y)) x =
    1 / 2 * h (entry 0 x + 1) + 1 / 2 * h (entry 0 x - 1)).
  { intros h x L. unfold after_step. cbn [per_step n_complex q expect]. unfold mean, coin. cbn [map rsum fold_right fst snd].
    assert (NM : next_mean blind_fwd flat_prior q (1 / 2) x = x).
    { destruct x as [|z [|]]; try discriminate. unfold next_mean, drift, gradlogpi. change (pr_proxf flat_prior [z]) with (soft [z] (TScal 0)). rewrite soft_zero. cbn. f_equal. destruct z. cplx. }
    assert (T : forall a, tape_of 1 (per_step false) [[a]]) by (intros a; split; [reflexivity|]; intros w [<- | []]; reflexivity).
    rewrite (step_value blind_fwd flat_prior q 1 1 0 1 (1 / 2) R0 x [[1]] blind_problem ltac:(cbn; lra) GR RT L (T 1)).
    rewrite (step_value blind_fwd flat_prior q 1 1 0 1 (1 / 2) R0 x [[-1]] blind_problem ltac:(cbn; lra) GR RT L (T (-1))).
    rewrite NM, !nth_vadd, !nth_vscal by (cbn; exact L). replace (2 * (1 / 2)) with 1 by field. rewrite sqrt_1. cbn [noise_of n_complex q].
    unfold entry at 2 4. cbn. rewrite !Rmult_1_l, Rplus_0_r. reflexivity. }
  assert (B : forall m, (0 < m)%nat -> 1 <= / INR m * mu (fun x => Rabs (entry 0 x))).
  { intros m Hm. destruct (LH m) as (C & HC). assert (S1 := SM C _ HC). 
    assert (L1 := lipschitz_lin 1 C 0 _ _ 1 1 HC LC). assert (L2 := lipschitz_lin 1 _ 1 _ _ 1 (- / INR m) L1 LB).
    assert (LA : exists D, lipschitz 1 D (after_step R0 blind_fwd flat_prior q (1 / 2) coin (fun y => hills m (entry 0 y)))).
    { exists C. destruct (hills_lipschitz m) as (C' & _). destruct HC as (P & HC). split; [exact P|]. intros x y Lx Ly. rewrite !V by auto.
      assert (G : forall s, Rabs (hills m (entry 0 x + s) - hills m (entry 0 y + s)) <= C * dist x y).
      { intros s. assert (Q := HC (vadd x [RtoC s]) (vadd y [RtoC s])). rewrite !nth_vadd in Q by (cbn; auto).
        assert (ED : dist (vadd x [RtoC s]) (vadd y [RtoC s]) = dist x y).
        { destruct x as [|z [|]]; try discriminate. destruct y as [|w [|]]; try discriminate. unfold dist. f_equal. f_equal. unfold vsub, vadd. cbn [map2]. f_equal. ring. }
        rewrite ED in Q. apply Q; rewrite vadd_length; auto. }
      assert (G1 := G 1). assert (G2 := G (-1)). replace (entry 0 x - 1) with (entry 0 x + -1) by ring. replace (entry 0 y - 1) with (entry 0 y + -1) by ring. apply Rabs_le_between in G1. apply Rabs_le_between in G2. apply Rabs_le. lra. }
    destruct LA as (D & LA).
    assert (Q := UM _ _ _ _ L2 LA). cbv beta in Q. rewrite (UL _ _ _ _ _ _ L1 LB), (UL _ _ _ _ _ _ HC LC), U1, S1 in Q.
    assert (Q' : 1 * (1 * mu (fun x => hills m (entry 0 x)) + 1 * 1) + - / INR m * mu (fun x => Rabs (entry 0 x)) <= mu (fun x => hills m (entry 0 x))).
    { apply Q. intros x L. rewrite V by auto. assert (W := hills_grow m (entry 0 x) Hm). lra. }
    lra. }
  set (d := mu (fun x => Rabs (entry 0 x))) in *. destruct (archimed d) as (H1 & _). set (z := up d) in *.
  assert (B1 := B 1%nat ltac:(lia)). cbn [INR] in B1. rewrite Rinv_1, Rmult_1_l in B1. assert (Z0 : (0 < z)%Z) by (apply lt_IZR; lra).
  specialize (B (Z.to_nat z) ltac:(lia)). rewrite INR_IZR_INZ, Z2Nat.id in B by lia. assert (P : 0 < IZR z) by lra.
  apply (Rmult_le_compat_l (IZR z)) in B; [|lra]. rewrite <- Rmult_assoc, Rinv_r, Rmult_1_l, Rmult_1_r in B by lra. lra.
Qed.
Print Assumptions C69_flat_refuted.

(** weight 1, delta = 1/2, coin noise, datum 1: the law of the parameter has mean
    1, and the average of N rows from the start 4 has mean square error at most
    644/N *)
Example C69_case : let f := weighted_fwd 1 in let q := mkNum 1 1 1 false in
  settling f flat_prior q 1 1 1 1 (1 / 2) coin 1 /\ centre f flat_prior q 1 [RtoC 1] /\ rate (n_lmda q) (1 / 2) 1 1 = 1 / 2 /\
  (forall R0 mu, good_rng R0 -> reads_tape R0 1 -> law_of_vectors 1 mu -> stationary R0 f flat_prior q (1 / 2) coin 1 mu -> mu (entry 0) = 1) /\
  forall prm N fuel K, p_nsamples prm = Z.of_nat N -> (0 < N)%nat -> p_track prm = ["logposterior"; "L2"; "prior"; "chain"]%string ->
    (total_iters (p_nburn prm) (p_ngap prm) N <= fuel)%nat -> (forall j, (j < N)%nat -> steps_to prm j <= K)%nat ->
    exists s0, new_sampler (mcmc_ops tape_rng f flat_prior q) prm (1 / 2) = Ok s0 /\
      average_error coin K (myula_run (mcmc_ops tape_rng f flat_prior q) prm fuel (StartArray [1%nat] [RtoC 4])) s0 N (entry 0) 1 <= 644 / INR N.
Proof.
  intros f q. assert (CP : convex_problem f flat_prior 1 1 1 1) by (apply weighted_problem; lra).
  assert (SE : settling f flat_prior q 1 1 1 1 (1 / 2) coin 1).
  { split; [exact CP|]. split; [lra|]. split; [cbn; lra|]. split; [lra|]. split; [cbn; lra|exact coin_white]. }
  assert (DR : forall z, gradlogpi f flat_prior q [z] None = Ok [(RtoC 1 - z)%C]).
  { intros z. unfold gradlogpi. change (pr_proxf flat_prior [z]) with (soft [z] (TScal 0)). rewrite soft_zero. cbn. do 2 f_equal. destruct z. cplx. }
  assert (CE : centre f flat_prior q 1 [RtoC 1]) by (split; [reflexivity|]; rewrite DR; unfold vzero; cbn; do 2 f_equal; cplx).
  assert (RV : rate (n_lmda q) (1 / 2) 1 1 = 1 / 2) by (unfold rate; cbn; field).
  assert (MU : forall R0 mu, good_rng R0 -> reads_tape R0 1 -> law_of_vectors 1 mu -> stationary R0 f flat_prior q (1 / 2) coin 1 mu -> mu (entry 0) = 1).
  { intros R0 mu GR RT LM SM. assert (B := C69_balance f flat_prior q 1 1 1 1 (1 / 2) coin 1 R0 mu SE GR RT LM SM 0 ltac:(lia)).
    assert (LE := entry_lipschitz 1 0).
    assert (LC : lipschitz 1 0 (fun _ => 1)) by (split; [lra|]; intros; rewrite Rminus_diag_eq, Rabs_R0 by reflexivity; lra).
    rewrite <- (law_ext 1 mu _ (fun x => 1 * 1 + -1 * entry 0 x) _ LM (lipschitz_lin 1 _ _ _ _ 1 (-1) LC LE)) in B.
    - rewrite (proj1 (proj2 LM) _ _ _ _ _ _ LC LE), (proj1 LM) in B. lra.
    - intros [|z [|]] L; try discriminate. rewrite DR. unfold entry. cbn. destruct z; cbn; ring. }
  split; [exact SE|]. split; [exact CE|]. split; [exact RV|]. split; [exact MU|].
  intros prm N fuel K EN HN ET HF HK.
  assert (TR : exists s0, new_sampler (mcmc_ops tape_rng f flat_prior q) prm (1 / 2) = Ok s0 /\ i_delta s0 = 1 / 2 /\
    forall j, (j < N)%nat -> tape_runs tape_rng f flat_prior q prm fuel [1%nat] [RtoC 4] s0 1 N K j).
  { assert (X : forall j, (j < N)%nat -> exists s0, new_sampler (mcmc_ops tape_rng f flat_prior q) prm (1 / 2) = Ok s0 /\ i_delta s0 = 1 / 2 /\
      tape_runs tape_rng f flat_prior q prm fuel [1%nat] [RtoC 4] s0 1 N K j).
    { intros j Hj. apply (C60_runs_exist f flat_prior q prm 1 1 1 1); auto; [cbn; lra|intros; eexists; reflexivity|cbn [per_step n_complex q]; specialize (HK j Hj); lia]. }
    destruct (X 0%nat HN) as (s0 & E0 & ED & _). exists s0. split; [exact E0|]. split; [exact ED|]. intros j Hj. destruct (X j Hj) as (s1 & E1 & _ & T).
    rewrite E0 in E1. injection E1 as <-. exact T. }
  destruct TR as (s0 & E0 & ED & TR). exists s0. split; [exact E0|].
  destruct (C69_settles f flat_prior q 1 1 1 1 (1 / 2) coin 1 [RtoC 1] SE CE) as (mu & LM & SM & _).
  destruct (TR 0%nat HN) as (GR & RT & _). specialize (SM tape_rng GR RT).
  assert (Q := C69_average f flat_prior q 1 1 1 1 (1 / 2) coin 1 [RtoC 1] tape_rng mu SE CE GR RT LM SM tape_rng prm fuel [1%nat] [RtoC 4] s0 N K 1 (entry 0) ED HN TR (entry_lipschitz 1 0)).
  assert (ME : mu (fun x => entry 0 (stored (n_complex q) x)) = 1).
  { rewrite <- (MU tape_rng mu GR RT LM SM). symmetry. apply (law_ext 1 mu 1); [exact LM|apply entry_lipschitz|]. intros [|z [|]] L; try discriminate. reflexivity. }
  rewrite ME in Q. eapply Rle_trans; [exact Q|]. apply (Rmult_le_compat_r (/ INR N)); [left; apply Rinv_0_lt_compat, lt_0_INR; lia|].
  unfold drate, settled_spread. rewrite RV. cbn [per_step n_complex q INR]. replace (nrm2 (vsub [RtoC 4] [RtoC 1])) with 9.
  2:{ unfold vsub. cbn [map2]. rewrite MomentProof.nrm2_cons. cbn. unfold nrm2. cbn. ring. }
  assert (SQ : sqrt (1 / 2) <= 71 / 100) by (rewrite <- (sqrt_pow2 (71 / 100)) by lra; apply sqrt_le_1_alt; lra).
  assert (D : 2 / (1 - sqrt (1 / 2)) <= 7) by (apply Rle_div_l; lra).
  apply Rle_trans with (7 * (1 ^ 2 * (8 * 9 + 10 * (2 * (1 / 2) * (1 * 1 * 1) / (1 - 1 / 2))))); [|lra].
  apply Rmult_le_compat_r; [lra|exact D].
Qed.
