(** C77: tuning the step size does not free PxMALA where the gradient is very large. *)
From Coq Require Import List ZArith Lia Bool Reals Lra Psatz String.
From Coquelicot Require Import Coquelicot.
From Verif Require Import PyBase PyBaseFacts CVec Thresh ThreshSpec ThreshProof OpSpec Utils UtilsSpec UtilsProof Prior PriorSpec PriorProof Forward
  McmcSpec FwdProof Sampler SamplerSpec SamplerFacts SamplerMain Mcmc McmcProof MeasProof StepProof SkProof P_Samplers P_Mcmc P_Works StableProof P_Stable
  MomentSpec MomentProof P_Moments SkDivProof P_SkDiv TuneSpec P_Tune FarSpec P_Far SteepSpec P_Steep.
Import ListNotations.
Notation length := List.length.
Open Scope R_scope.

Lemma margin_band : forall lmda hi d, 0 < lmda -> 0 < hi -> lmda * hi < 3 -> lmda / 10 ^ 8 <= d <= lmda / 2 ->
  1 - (1 + lmda * hi) / 4 <= margin lmda hi d.
Proof.
  intros lmda hi d Hl Hh H3 (_ & D). unfold margin. assert (I0 := Rinv_0_lt_compat _ Hl).
  assert (K : d * (/ lmda + hi) <= lmda / 2 * (/ lmda + hi)) by (apply Rmult_le_compat_r; lra).
  replace (lmda / 2 * (/ lmda + hi)) with ((1 + lmda * hi) / 2) in K by (field; lra). lra.
Qed.

Lemma tuned_band : forall q d a i, 0 < n_lmda q -> n_lmda q / 10 ^ 8 <= tuned q d a i <= n_lmda q / 2.
Proof.
  intros q d a i Hl. unfold tuned. cbv zeta. set (x := d * _). clearbody x.
  replace (n_lmda q * (1 / 100000000)) with (n_lmda q / 10 ^ 8) by (simpl; field).
  assert (n_lmda q / 10 ^ 8 < n_lmda q / 2) by (simpl; lra). set (lo := n_lmda q / 10 ^ 8) in *. clearbody lo.
  unfold Rmin, Rmax. repeat destruct (Rle_dec _ _); lra.
Qed.

Lemma steep_tuned_path : forall G (R0 : rng G) f pr q n m lo hi B P k u x gr,
  good_rng R0 -> convex_problem f pr n m lo hi -> tame pr n B P -> real_drift f pr q n -> n_complex q = false -> 0 < n_lmda q ->
  n_lmda q * hi < 3 -> 0 <= B -> 0 <= P -> 0 < u ->
  (forall g, size (map RtoC (fst (g_randn R0 n g))) <= k) -> (forall g, u <= fst (g_rand R0 g)) ->
  length x = n -> reals x -> gradlogpi f pr q x None = Ok gr -> steep_for_all (n_lmda q) (n_mu q) hi B P k u (size gr) ->
  forall tr i g delta, n_lmda q / 10 ^ 8 <= delta <= n_lmda q / 2 -> mh_path (mcmc_ops R0 f pr q) true i (x, delta, g) tr ->
  map (fun p => b2z (fst p)) tr = repeat 0%Z (length tr) /\ forall j s, nth_error tr j <> Some (true, s).
Proof.
  intros G R0 f pr q n m lo hi B P k u x gr GR CP TM RD NC Hl H3 HB HP Hu BN BU Lx Rx EG TS.
  assert (Hh : 0 < hi) by (destruct CP as (_ & _ & _ & _ & _ & _ & Hi & _); exact Hi).
  induction tr as [|[acc [[x' d'] g']] tr IH]; intros i g delta D PA; [split; [reflexivity|intros [|j] s; discriminate]|].
  inversion PA as [|? ? ? ? ? T PA']; subst.
  assert (D0 : 0 < delta) by (assert (0 < n_lmda q / 10 ^ 8) by (simpl; lra); lra).
  assert (M0 := margin_band (n_lmda q) hi delta Hl Hh H3 D).
  assert (T' : mh_trans (mcmc_ops R0 f pr q) false i (x, delta, g) acc (x', delta, g') /\ d' = tuned q delta (b2z acc) i).
  { destruct T as (y & g1 & lu & a & T1 & T2 & T3 & T4 & T5 & T6). split; [|exact T6]. exists y, g1, lu, a.
    split; [exact T1|]. split; [exact T2|]. split; [exact T3|]. split; [exact T4|]. split; [exact T5|reflexivity]. }
  destruct T' as (T' & ED).
  destruct (steep_rejected G R0 f pr q _ m lo hi B P delta k u x gr g acc x' delta g' i GR CP TM RD NC Hl HB HP D0 ltac:(lra) Hu BN BU
    eq_refl Rx EG (TS delta D) T') as (-> & -> & _).
  destruct (IH _ _ d' ltac:(subst d'; apply tuned_band; exact Hl) PA') as (I1 & I2).
  split; [cbn; rewrite I1; reflexivity|]. intros [|j] s; [discriminate|apply I2].
Qed.

(** tuned runs never accept a proposal, and their step size ends at lmda/10^8 *)
Theorem C77_locked : forall G (R0 : rng G) f pr q n m lo hi B P k u x gr prm fuel wd N,
  good_rng R0 -> convex_problem f pr n m lo hi -> shapes_fit f pr n m -> tame pr n B P -> real_drift f pr q n ->
  n_complex q = false -> 0 < n_lmda q -> n_lmda q * hi < 3 -> 0 <= B -> 0 <= P ->
  n_lmda q / 10 ^ 8 <= i_delta (w_inst wd) <= n_lmda q / 2 -> 0 < u ->
  (forall g, size (map RtoC (fst (g_randn R0 n g))) <= k) -> (forall g, u <= fst (g_rand R0 g)) ->
  length x = n -> reals x -> gradlogpi f pr q x None = Ok gr -> steep_for_all (n_lmda q) (n_mu q) hi B P k u (size gr) ->
  sized (w_inst wd) N -> p_nsamples prm = Z.of_nat N -> (0 < N)%nat ->
  exists wd', pxmala_run (mcmc_ops R0 f pr q) prm true fuel (StartArray [n] x) wd = (wd', NoFuel) /\
    i_acc (w_inst wd') = Some (repeat 0%Z fuel) /\ i_chain (w_inst wd') = i_chain (w_inst wd) /\
    i_logPi (w_inst wd') = i_logPi (w_inst wd) /\
    exists trace, i_deltas (w_inst wd') = Some trace /\ length trace = S fuel /\
      forall j, (14640 <= j <= fuel)%nat -> nth_error trace j = Some (n_lmda q / 10 ^ 8).
Proof.
  intros G R0 f pr q n m lo hi B P k u x gr prm fuel wd N GR CP SF TM RD NC Hl H3 HB HP IB Hu BN BU Lx Rx EG TS SZ EN HN.
  set (o := mcmc_ops R0 f pr q). set (delta := i_delta (w_inst wd)) in *.
  assert (NX : forall x0 g0 tr i, mh_starts o (StartArray [n] x) (w_rng wd) x0 g0 ->
    mh_path o true i (x0, delta, g0) tr -> map (fun p => b2z (fst p)) tr = repeat 0%Z (length tr) /\ forall j s, nth_error tr j <> Some (true, s)).
  { intros x0 g0 tr i (S0 & _) PA. unfold o in S0. cbn [mcmc_ops o_init choose_start] in S0.
    rewrite (proj1 CP) in S0. cbn in S0. rewrite Lx, Nat.eqb_refl in S0. injection S0 as <- <-.
    exact (steep_tuned_path G R0 f pr q n m lo hi B P k u x gr GR CP TM RD NC Hl H3 HB HP Hu BN BU Lx Rx EG TS _ _ _ delta IB PA). }
  assert (AG : forall (tr : list (bool * SamplerSpec.mh_state vec R G)) idx, (forall j s, nth_error tr j <> Some (true, s)) ->
    accepted_on_grid (p_nburn prm) (p_ngap prm) tr idx -> idx = @nil nat).
  { intros tr [|a idx] NO (_ & A); [reflexivity|]. exfalso. destruct (proj1 (A a) (or_introl eq_refl)) as (_ & s & E). exact (NO _ _ E). }
  destruct (proj2 (C06_numerical_runs_end_iff G R0 f pr q prm true (StartArray [n] x) wd n m N
      GR SF ltac:(lra) ltac:(split; [reflexivity|exact Lx]) SZ EN) fuel) as (wd' & [E | E]); fold o in E.
  - exfalso. destruct (mala_ref_ret _ _ _ _ _ _ _ _ SZ EN E) as (j & _ & (x0 & g0 & tr & idx & l & S0 & MP & LT & A & LL & F2 & _)).
    destruct (NX _ _ _ _ S0 MP) as (_ & NO). rewrite (AG _ _ NO A) in F2. inversion F2; subst l. cbn in LL. lia.
  - destruct (mala_ref_stop _ _ _ _ _ _ _ _ SZ EN E) as (j & _ & (x0 & g0 & tr & idx & l & S0 & MP & LT & A & LL & F2 & RC & EA & _)).
    destruct (NX _ _ _ _ S0 MP) as (RP & NO). rewrite (AG _ _ NO A) in F2. inversion F2; subst l.
    assert (EA' : i_acc (w_inst wd') = Some (repeat 0%Z fuel)) by (rewrite EA, RP, LT; reflexivity).
    exists wd'. split; [exact E|]. split; [exact EA'|].
    destruct RC as (RL & _ & _ & _ & RV). cbn [map] in RL, RV. unfold rec_arr in RL, RV. split; [|split].
    + destruct (i_chain (w_inst wd)), (i_chain (w_inst wd')); try (destruct RV; fail); auto.
      destruct RV as (rows & FF & _ & ->). inversion FF; subst. reflexivity.
    + destruct (i_logPi (w_inst wd)), (i_logPi (w_inst wd')); try (destruct RL; fail); auto.
      destruct RL as (rows & FF & _ & ->). inversion FF; subst. reflexivity.
    + destruct (C07_tuned G R0 f pr q prm fuel (StartArray [n] x) wd wd' N NoFuel Hl SZ EN E (or_intror eq_refl)) as (accs & ds & EC & ED & _ & TH & _).
      rewrite EA' in EC. injection EC as <-. assert (LD : length ds = fuel) by (destruct TH as (LD & _); rewrite repeat_length in LD; exact LD).
      eexists. split; [exact ED|]. split; [cbn; rewrite LD; reflexivity|]. intros i Hi.
      assert (I0 : (0 < i <= fuel)%nat) by (destruct Hi as (Hi & Hf); split; [eapply Nat.lt_le_trans; [|exact Hi]; apply Nat.ltb_lt; vm_compute; reflexivity|exact Hf]).
      assert (K := proj2 (C71_ends_reached G R0 f pr q prm fuel (StartArray [n] x) wd wd' N NoFuel _ _ 0 i 0%Z Hl SZ EN E (or_intror eq_refl) EA' ED
        ltac:(rewrite repeat_length; exact I0) (or_intror IB) ltac:(intros t Ht; rewrite (nth_indep _ 2%Z 0%Z), nth_repeat by (rewrite repeat_length; clear - Ht I0; lia); reflexivity)
        ltac:(eapply Rle_trans; [exact C71_case_start|]; apply Rplus_le_compat_r, le_INR; exact (proj1 Hi))) eq_refl).
      unfold step_at in K. rewrite <- K. apply nth_error_nth'. cbn. clear - I0 LD. lia.
Qed.
Print Assumptions C77_locked.

Lemma steep_band : forall lmda mu hi B P k u, 0 < lmda -> 0 < hi -> lmda * hi < 3 ->
  exists r, forall gamma, r <= gamma -> steep_for_all lmda mu hi B P k u gamma.
Proof.
  intros lmda mu hi B P k u Hl Hh H3. set (d0 := lmda / 10 ^ 8). assert (D0 : 0 < d0) by (unfold d0; simpl; lra).
  set (m0 := 1 - (1 + lmda * hi) / 4). assert (M0 : 0 < m0) by (unfold m0; lra). set (t := d0 * m0).
  assert (T0 : 0 < t) by (apply Rmult_lt_0_compat; auto). assert (T4 : 0 < t ^ 4) by (apply pow_lt; auto).
  assert (D4 : 0 < d0 * t ^ 4) by (apply Rmult_lt_0_compat; auto).
  set (a := 6 * sqrt lmda * Rabs k). set (b := 256 * (Rabs mu * P + 2 * B / lmda + 2)). set (c := - (64 * ln u)).
  exists (1 + Rabs (a / t) + Rabs (b / t ^ 4) + Rabs (c / (d0 * t ^ 4)))%R. intros g Hg d Hd.
  assert (X1 := Rabs_pos (a / t)). assert (X2 := Rabs_pos (b / t ^ 4)). assert (X3 := Rabs_pos (c / (d0 * t ^ 4))).
  assert (Y1 := Rle_abs (a / t)). assert (Y2 := Rle_abs (b / t ^ 4)). assert (Y3 := Rle_abs (c / (d0 * t ^ 4))).
  assert (G1 : 1 <= g) by lra. assert (G2 : g <= g ^ 2) by nra. assert (G4 : g <= g ^ 4).
  { replace (g ^ 4) with (g ^ 2 * g ^ 2) by ring. nra. }
  assert (MB := margin_band lmda hi d Hl Hh H3 Hd). fold m0 in MB. fold d0 in Hd.
  unfold too_steep. set (t' := d * margin lmda hi d). assert (TT : t <= t') by (apply Rmult_le_compat; lra).
  assert (TT4 : t ^ 4 <= t' ^ 4) by (apply pow_incr; lra).
  split; [exact G1|]. split; [|split].
  - apply Rle_trans with a.
    + unfold a. assert (S1 : sqrt (2 * d) <= sqrt lmda) by (apply sqrt_le_1_alt; lra). assert (S0 := sqrt_pos (2 * d)).
      assert (K1 := Rle_abs k). assert (K2 := Rabs_pos k).
      apply Rle_trans with (6 * sqrt (2 * d) * Rabs k); [apply Rmult_le_compat_l; lra|apply Rmult_le_compat_r; lra].
    + apply Rle_trans with (t * g); [|apply Rmult_le_compat_r; lra].
      replace a with (t * (a / t)) by (field; lra). apply Rmult_le_compat_l; lra.
  - fold b. apply Rle_trans with (t ^ 4 * g ^ 2); [|apply Rmult_le_compat_r; [apply pow2_ge_0|lra]].
    replace b with (t ^ 4 * (b / t ^ 4)) by (field; lra). apply Rmult_le_compat_l; lra.
  - fold c. apply Rlt_le_trans with (d0 * t ^ 4 * g ^ 4).
    + replace c with (d0 * t ^ 4 * (c / (d0 * t ^ 4))) by (field; lra). apply Rmult_lt_compat_l; lra.
    + apply Rmult_le_compat_r; [lra|]. apply Rmult_le_compat; lra.
Qed.

(** with a data term that sees every direction and lmda hi < 3, every start outside
    some ball is such a start *)
Theorem C77_outside : forall f pr q n m lo hi B P k u, convex_problem f pr n m lo hi -> tame pr n B P -> 0 < n_lmda q -> 0 < lo ->
  n_lmda q * hi < 3 ->
  exists r, forall x, length x = n -> r <= size x -> exists gr, gradlogpi f pr q x None = Ok gr /\
    steep_for_all (n_lmda q) (n_mu q) hi B P k u (size gr).
Proof.
  intros f pr q n m lo hi B P k u CP TM Hl Hlo H3.
  assert (Hh : 0 < hi) by (destruct CP as (_ & _ & _ & _ & _ & _ & Hi & _); exact Hi).
  destruct (steep_band (n_lmda q) (n_mu q) hi B P k u Hl Hh H3) as (r & HR).
  set (z := nm (drift f pr q (repeat (RtoC 0) n)) + 2 * B / n_lmda q).
  exists ((r + z) / lo). intros x Lx Hx.
  destruct (problem_parts f pr q n m lo hi x CP Lx) as (d & gr & p & _ & _ & _ & _ & _ & A6 & _).
  exists (drift f pr q x). split; [exact A6|]. apply HR. rewrite size_nm in *.
  assert (K := drift_grows f pr q n m lo hi B P x CP TM Hl Lx).
  assert (r + z <= lo * nm x) by (replace (r + z) with (lo * ((r + z) / lo)) by (field; lra); apply Rmult_le_compat_l; lra).
  unfold z in *. lra.
Qed.
Print Assumptions C77_outside.

(** parameters observed directly with an L1 prior *)
Theorem C77_sparse : forall fwd adj T Tl p n w c q k u, (forall t, In t Tl -> 0 <= t) ->
  L1_init "synthesis" fwd adj T = Ok p -> thresholds T n Tl -> length c = n -> 0 < w -> 0 < n_lmda q -> n_complex q = false ->
  n_lmda q * w < 3 -> 0 < u ->
  let f := direct n w c in let pr := mkPrior (fun X => Ok (L1_prior X)) (proxf p) in
  exists r, forall G (R0 : rng G) (x : list R) prm fuel wd N,
    good_rng R0 -> (forall g, size (map RtoC (fst (g_randn R0 n g))) <= k) -> (forall g, u <= fst (g_rand R0 g)) ->
    length x = n -> r <= size (arr x) -> n_lmda q / 10 ^ 8 <= i_delta (w_inst wd) <= n_lmda q / 2 ->
    sized (w_inst wd) N -> p_nsamples prm = Z.of_nat N -> (0 < N)%nat ->
    exists wd', pxmala_run (mcmc_ops R0 f pr q) prm true fuel (StartArray [n] (arr x)) wd = (wd', NoFuel) /\
      i_acc (w_inst wd') = Some (repeat 0%Z fuel) /\ i_chain (w_inst wd') = i_chain (w_inst wd) /\
      i_logPi (w_inst wd') = i_logPi (w_inst wd) /\
      exists trace, i_deltas (w_inst wd') = Some trace /\ length trace = S fuel /\
        forall j, (14640 <= j <= fuel)%nat -> nth_error trace j = Some (n_lmda q / 10 ^ 8).
Proof.
  intros fwd adj T Tl p n w c q k u NN EI TH Lc Hw Hl NC H3 Hu f pr.
  destruct (sparse_parts fwd adj T Tl p n w c q NN EI TH Lc Hw) as (CP & SF & TM & RD). fold f pr in CP, SF, TM, RD.
  set (B := sqrt _) in TM. set (P := sqrt (INR n)) in TM.
  destruct (C77_outside f pr q n n w w B P k u CP TM Hl Hw H3) as (r & HR).
  exists r. intros G R0 x prm fuel wd N GR BN BU Lx Hx IB SZ EN HN.
  assert (La : length (arr x) = n) by (rewrite arr_length; exact Lx).
  destruct (HR (arr x) La Hx) as (gr & EG & TS).
  apply (C77_locked G R0 f pr q n n w w B P k u (arr x) gr prm fuel wd N); auto; try apply sqrt_pos. apply real_arr.
Qed.
Print Assumptions C77_sparse.

(** "tunes delta to achieve an acceptance probability of 0.5": one parameter,
    observed directly, runs of any length with rate 0 and the smallest step size *)
Theorem C77_half_refuted : exists G (R0 : rng G) f pr q x0, good_rng R0 /\ shapes_fit f pr 1 1 /\ convex_problem f pr 1 1 1 1 /\ n_lmda q = 1 /\
  (forall g, 0 < fst (g_rand R0 g) < 1) /\
  forall prm fuel wd N, sized (w_inst wd) N -> p_nsamples prm = Z.of_nat N -> (0 < N)%nat ->
    1 / 10 ^ 8 <= i_delta (w_inst wd) <= 1 / 2 ->
    exists wd' trace, pxmala_run (mcmc_ops R0 f pr q) prm true fuel (StartArray [1%nat] [RtoC x0]) wd = (wd', NoFuel) /\
      i_acc (w_inst wd') = Some (repeat 0%Z fuel) /\ i_deltas (w_inst wd') = Some trace /\
      forall j, (14640 <= j <= fuel)%nat -> nth_error trace j = Some (1 / 10 ^ 8).
Proof.
  set (R0 := mkRng (fun n (g : unit) => (repeat 1 n, g)) (fun n g => (repeat 1 n, g)) (fun g => (1 / 2, g))).
  set (q := mkNum 1 1 1 false). set (idf := fun x : vec => Ok x).
  destruct (C77_sparse idf idf (TScal 1) [1] (mkL1 "synthesis" idf idf (TScal 1)) 1 1 [0] q 1 (1 / 2)) as (r & HR); try reflexivity; cbn [q n_lmda]; try lra.
  { intros t [<- | []]. lra. }
  { split; reflexivity. }
  destruct (sparse_parts idf idf (TScal 1) [1] (mkL1 "synthesis" idf idf (TScal 1)) 1 1 [0] q ltac:(intros t [<- | []]; lra) eq_refl
    ltac:(split; reflexivity) eq_refl ltac:(lra)) as (CP & SF & _).
  exists unit, R0, (direct 1 1 [0]), (mkPrior (fun X => Ok (L1_prior X)) (proxf (mkL1 "synthesis" idf idf (TScal 1)))), q, (Rabs r).
  assert (GR : good_rng R0) by (intros m g; cbn; rewrite !repeat_length; auto).
  split; [exact GR|]. split; [exact SF|]. split; [exact CP|]. split; [reflexivity|]. split; [intros g; cbn; lra|].
  intros prm fuel wd N SZ EN HN IB.
  destruct (HR unit R0 [Rabs r] prm fuel wd N GR) as (wd' & E & EA & _ & _ & trace & ED & _ & K); auto.
  - intros g. cbn. unfold size. cbn. rewrite Cmod_1. replace (1 * (1 * 1) + 0) with 1 by ring. rewrite sqrt_1. lra.
  - intros g. cbn. lra.
  - unfold size. cbn [arr map fold_right]. rewrite Cmod_R, Rplus_0_r, sqrt_pow2 by apply Rabs_pos. rewrite Rabs_Rabsolu. apply Rle_abs.
  - exists wd', trace. auto.
Qed.
Print Assumptions C77_half_refuted.

(** the problem of C76_case started at (3, 4) 10^20 *)
Example C77_case : forall s n0 b, let q := mkNum 1 1 s b in
  let pr := mkPrior (fun X => Ok (L1_prior X)) (proxf (mkL1 "synthesis" n0 n0 (TScal 1))) in
  gradlogpi (direct 2 1 [0; 0]) pr q (arr [3 * 10 ^ 20; 4 * 10 ^ 20]) None = Ok (arr [- (3 * 10 ^ 20 + 1); - (4 * 10 ^ 20 + 1)]) /\
  steep_for_all 1 1 1 (sqrt 2) (sqrt 2) 3 (exp (-10)) (size (arr [- (3 * 10 ^ 20 + 1); - (4 * 10 ^ 20 + 1)])).
Proof.
  intros s n0 b q pr. assert (TEN : 1 <= 10 ^ 20) by (simpl; lra). split.
  - set (h := 10 ^ 20) in *. clearbody h.
    rewrite (gradlogpi_value _ pr q (arr [3 * h; 4 * h]) (arr [3 * h; 4 * h]) (arr [3 * h - 1; 4 * h - 1]) (arr [3 * h; 4 * h]) None); try reflexivity.
    + f_equal. unfold langevin_drift. cbn. repeat f_equal; apply C_ext; cbn; field.
    + cbn [pr pr_proxf]. rewrite synth_soft by reflexivity. cbn [p_T]. rewrite soft_scal. cbn [arr map]. rewrite !soft1_big by lra. reflexivity.
    + left. split; reflexivity.
    + rewrite direct_gradient by reflexivity. cbn. f_equal. unfold arr. cbn. repeat f_equal; apply C_ext; cbn; ring.
  - set (g := size _). assert (G2 : 25 * (10 ^ 20) ^ 2 <= g ^ 2).
    { set (h := 10 ^ 20) in *. clearbody h. unfold g, size. cbn [map arr fold_right]. rewrite !Cmod_R.
      rewrite pow2_sqrt; [|generalize (pow2_ge_0 (Rabs (- (3 * h + 1)))) (pow2_ge_0 (Rabs (- (4 * h + 1)))); lra].
      rewrite !pow2_abs. nra. }
    assert (G0 : 0 <= g) by apply sqrt_pos. assert (G1 : 10 ^ 20 <= g) by nra.
    assert (S2 : sqrt 2 <= 3 / 2) by (rewrite <- (sqrt_pow2 (3 / 2)) by lra; apply sqrt_le_1_alt; lra).
    assert (S20 := sqrt_pos 2). intros d Hd.
    assert (M0 := margin_band 1 1 d ltac:(lra) ltac:(lra) ltac:(lra) Hd).
    unfold too_steep. set (t := d * margin 1 1 d). assert (T0 : 5 / 10 ^ 9 <= t).
    { apply Rle_trans with (1 / 10 ^ 8 * (1 / 2)); [simpl; lra|]. apply Rmult_le_compat; simpl in *; lra. }
    assert (T4 : (5 / 10 ^ 9) ^ 4 <= t ^ 4) by (apply pow_incr; split; [simpl; lra|exact T0]).
    assert (SD : sqrt (2 * d) <= 1) by (rewrite <- sqrt_1; apply sqrt_le_1_alt; lra).
    rewrite Rabs_R1, ln_exp.
    assert (TG : 5 / 10 ^ 9 * 10 ^ 20 <= t * g) by (apply Rmult_le_compat; simpl in *; lra).
    assert (TG2 : (5 / 10 ^ 9) ^ 4 * (25 * (10 ^ 20) ^ 2) <= t ^ 4 * g ^ 2) by (apply Rmult_le_compat; simpl in *; lra).
    assert (P0 : 2000 <= t ^ 4 * g ^ 2) by (simpl in *; lra).
    assert (g2 : 10 ^ 30 <= g ^ 2) by (simpl in *; lra).
    split; [simpl in *; lra|]. split; [simpl in *; lra|]. split; [lra|].
    apply Rlt_le_trans with (1 / 10 ^ 8 * (2000 * 10 ^ 30)); [simpl; lra|].
    replace (d * t ^ 4 * g ^ 4) with (d * (t ^ 4 * g ^ 2 * g ^ 2)) by ring.
    apply Rmult_le_compat; [simpl; lra|simpl; lra|lra|]. apply Rmult_le_compat; simpl in *; lra.
Qed.
