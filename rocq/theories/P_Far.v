(** C74: the acceptance rule of PxMALA on a Gaussian target. *)
From Coq Require Import List ZArith Lia Bool Reals Lra Psatz String.
From Coquelicot Require Import Coquelicot.
From Verif Require Import PyBase CVec Thresh Prior Forward FwdProof Sampler SamplerSpec SamplerMain Mcmc McmcSpec McmcProof
  StepProof MeasProof PriorSpec PriorProof P_Samplers P_Mcmc P_Works RSort FarSpec.
Import ListNotations.
Open Scope R_scope.
Notation length := List.length.

(** ** sums over the entries *)
Lemma dist2_nonneg : forall x y, 0 <= dist2 x y.
Proof. induction x as [|a x IH]; intros [|b y]; simpl; try lra. generalize (pow2_ge_0 (a - b)) (IH y). simpl. lra. Qed.
Lemma dist2_sym : forall x y, dist2 x y = dist2 y x.
Proof. induction x as [|a x IH]; intros [|b y]; cbn [dist2]; try reflexivity. rewrite IH. ring. Qed.
Lemma arr_length : forall x, length (arr x) = length x.
Proof. intros; apply map_length. Qed.

(** the residual whose squares calc_logtransition adds *)
Lemma residual_sum : forall lm delta w c x y, length c = length x -> length y = length x ->
  csum (map (fun z => z * z)%C (vsub (vsub (arr y) (arr x))
    (vscal (RtoC (delta / 2)) (vsub (vscal lm (vsub (arr x) (arr x))) (map (fun p => RtoC (w * (fst p - snd p))) (combine x c)))))) =
  RtoC ((1 - delta * w / 2) * dist2 x y + (delta * w / 2) * dist2 y c - (delta * w / 2) * (1 - delta * w / 2) * dist2 x c).
Proof.
  intros lm delta w c x; revert c; induction x as [|a x IH]; intros [|b c] [|e y] Lc Ly; cbn in Lc, Ly; try lia.
  - cbn. f_equal. ring.
  - specialize (IH c y ltac:(lia) ltac:(lia)).
    unfold arr, vsub, vscal in *. cbn [combine map map2 csum fold_right fst snd dist2] in *.
    unfold csum in IH. rewrite IH. destruct lm as [l1 l2]. apply C_ext; cbn; field.
Qed.

Lemma real_transition : forall q delta w c x y, length c = length x -> length y = length x ->
  logtransition q delta (arr x) (arr y) (arr x) (map (fun p => RtoC (w * (fst p - snd p))) (combine x c)) =
  Ok (RtoC (- delta / 2 *
    ((1 - delta * w / 2) * dist2 x y + (delta * w / 2) * dist2 y c - (delta * w / 2) * (1 - delta * w / 2) * dist2 x c) ^ 2)).
Proof.
  intros q delta w c x y Lc Ly. rewrite C13_logtransition_value.
  - cbv zeta. rewrite residual_sum by auto. f_equal. apply C_ext; cbn; ring.
  - reflexivity.
  - rewrite map_length, combine_length, arr_length. lia.
  - rewrite !arr_length. auto.
Qed.

(** ** the ratio *)
Theorem C74_ratio : forall G (R0 : rng G) f pr q n w c delta x y a,
  well f pr q n w c -> length x = n -> length y = n ->
  (mh_logalpha (mcmc_ops R0 f pr q) delta (arr x) (arr y) a <->
   a = RtoC (w * (dist2 y c - dist2 x c) * (excess delta w c x y - 1))).
Proof.
  intros G R0 f pr q n w c delta x y a (EN & Lc & e & W) Lx Ly.
  destruct (W x Lx) as (dx & l2x & px & A1 & A2 & A3 & A4). destruct (W y Ly) as (dy & l2y & py & B1 & B2 & B3 & B4).
  assert (T1 := real_transition q delta w c x y ltac:(congruence) ltac:(congruence)).
  assert (T2 := real_transition q delta w c y x ltac:(congruence) ltac:(congruence)).
  rewrite (dist2_sym y x) in T2.
  assert (ALG : forall u v g h, (u + (e - w * dist2 y c) - v - (e - w * dist2 x c))%R = w * (dist2 y c - dist2 x c) * (g - 1) -> h = RtoC g ->
     (RtoC u + RtoC (e - w * dist2 y c) - RtoC v - RtoC (e - w * dist2 x c))%C = RtoC (w * (dist2 y c - dist2 x c) * (g - 1))).
  { intros u v g h E _. rewrite <- E. apply C_ext; cbn; ring. }
  assert (EX : forall u v, u = - delta / 2 * ((1 - delta * w / 2) * dist2 x y + (delta * w / 2) * dist2 x c - (delta * w / 2) * (1 - delta * w / 2) * dist2 y c) ^ 2 ->
     v = - delta / 2 * ((1 - delta * w / 2) * dist2 x y + (delta * w / 2) * dist2 y c - (delta * w / 2) * (1 - delta * w / 2) * dist2 x c) ^ 2 ->
     (RtoC u + RtoC (e - w * dist2 y c) - RtoC v - RtoC (e - w * dist2 x c))%C =
     RtoC (w * (dist2 y c - dist2 x c) * (excess delta w c x y - 1))).
  { intros u v -> ->. eapply ALG; [|reflexivity]. unfold excess. field. }
  split.
  - intros (dx' & gx & px' & lx & dy' & gy & py' & ly & qxy & qyx & E1 & E2 & E3 & E4 & E5 & E6 & E7 & E8 & E9 & E10 & ->).
    cbn [mcmc_ops o_forward o_gradg o_proxf o_logpi o_logtrans o_ksub o_kadd] in *.
    rewrite A1 in E1. apply Ok_inj in E1. subst dx'. rewrite B1 in E5. apply Ok_inj in E5. subst dy'.
    rewrite A3 in E2. apply Ok_inj in E2. subst gx. rewrite B3 in E6. apply Ok_inj in E6. subst gy.
    rewrite A2 in E3. apply Ok_inj in E3. subst px'. rewrite B2 in E7. apply Ok_inj in E7. subst py'.
    rewrite A4 in E4. apply Ok_inj in E4. subst lx. rewrite B4 in E8. apply Ok_inj in E8. subst ly.
    rewrite T1 in E9. apply Ok_inj in E9. subst qxy. rewrite T2 in E10. apply Ok_inj in E10. subst qyx.
    cbn [fst snd]. apply EX; reflexivity.
  - intros ->. eexists dx, _, (arr x), _, dy, _, (arr y), _, _, _.
    cbn [mcmc_ops o_forward o_gradg o_proxf o_logpi o_logtrans o_ksub o_kadd].
    split; [exact A1|]. split; [exact A3|]. split; [exact A2|]. split; [exact A4|].
    split; [exact B1|]. split; [exact B3|]. split; [exact B2|]. split; [exact B4|].
    split; [exact T1|]. split; [exact T2|]. cbn [fst snd]. symmetry. apply EX; reflexivity.
Qed.
Print Assumptions C74_ratio.

(** ** what Metropolis-Hastings asks for *)
Lemma pulled_length : forall delta w c x, length c = length x -> length (pulled delta w c x) = length x.
Proof. intros. unfold pulled. rewrite map_length, combine_length. lia. Qed.

Lemma pulled_dist : forall delta w c x y, length c = length x -> length y = length x ->
  nrm2 (vsub (arr y) (pulled delta w c x)) =
  (1 - delta * w) * dist2 x y + delta * w * dist2 y c - delta * w * (1 - delta * w) * dist2 x c.
Proof.
  intros delta w c x; revert c; induction x as [|a x IH]; intros [|b c] [|e y] Lc Ly; cbn in Lc, Ly; try lia.
  - cbn. ring.
  - specialize (IH c y ltac:(lia) ltac:(lia)). unfold nrm2, vsub, pulled, arr in *.
    cbn [combine map map2 rsum fold_right fst snd dist2] in *. unfold rsum in IH. rewrite IH, Cmod_sq. cbn. ring.
Qed.

Theorem C74_proper : forall f pr q n w c delta x y, well f pr q n w c -> length x = n -> length y = n -> delta <> 0 ->
  proposal_mean f pr q delta (arr x) (pulled delta w c x) /\
  exists lx ly, target_at f pr q (arr x) (RtoC lx) /\ target_at f pr q (arr y) (RtoC ly) /\
    ly + log_gauss delta (pulled delta w c y) (arr x) - lx - log_gauss delta (pulled delta w c x) (arr y) =
    - (w * (dist2 y c - dist2 x c) * (2 + delta * w) / 4).
Proof.
  intros f pr q n w c delta x y (EN & Lc & e & W) Lx Ly D0. split.
  - destruct (W x Lx) as (dx & l2x & px & A1 & A2 & A3 & A4).
    eexists. split.
    + apply (gradlogpi_value f pr q (arr x) dx (arr x) (map (fun p => RtoC (w * (fst p - snd p))) (combine x c)) None); auto.
      rewrite map_length, combine_length, arr_length. lia.
    + clear - Lc Lx. assert (L : length c = length x) by congruence. clear Lc Lx n. revert c L.
      unfold pulled, langevin_drift, vadd, vscal, vsub, arr.
      induction x as [|a x IH]; intros [|b c] L; cbn in L; try lia; [reflexivity|].
      cbn [combine map map2 fst snd]. f_equal; [apply C_ext; cbn; ring|]. apply IH. lia.
  - destruct (W x Lx) as (dx & l2x & px & A1 & A2 & A3 & A4). destruct (W y Ly) as (dy & l2y & py & B1 & B2 & B3 & B4).
    exists (e - w * dist2 x c), (e - w * dist2 y c). split; [exists dx, l2x, px; auto|]. split; [exists dy, l2y, py; auto|].
    unfold log_gauss. rewrite !pulled_dist by congruence. rewrite (dist2_sym y x). field. exact D0.
Qed.
Print Assumptions C74_proper.

(** ** which proposals are accepted *)
Lemma prob_one : forall a, accept_prob a = 1 <-> 0 <= a.
Proof.
  intros a. unfold accept_prob, Rmin. destruct (Rle_dec 1 (exp a)) as [H | H].
  - split; [intros _|reflexivity]. destruct (Rle_or_lt 0 a) as [K | K]; [exact K|].
    apply exp_increasing in K. rewrite exp_0 in K. lra.
  - split; [lra|]. intros K. exfalso. apply H. destruct K as [K | <-]; [apply exp_increasing in K; rewrite exp_0 in K; lra|rewrite exp_0; lra].
Qed.

Theorem C74_reversed : forall G (R0 : rng G) f pr q n w c delta x y,
  well f pr q n w c -> 0 < w -> length x = n -> length y = n ->
  exists a, mh_logalpha (mcmc_ops R0 f pr q) delta (arr x) (arr y) (RtoC a) /\
    (excess delta w c x y < 1 -> (accept_prob a = 1 <-> dist2 y c <= dist2 x c)) /\
    (1 < excess delta w c x y -> (accept_prob a = 1 <-> dist2 x c <= dist2 y c)).
Proof.
  intros G R0 f pr q n w c delta x y W Hw Lx Ly. eexists. split; [eapply C74_ratio; eauto|].
  set (D := dist2 y c - dist2 x c). set (E := excess delta w c x y).
  split; intros HE; rewrite prob_one; (split; intros H; [apply Rnot_lt_le; intros N|unfold D]).
  - assert (P : 0 < D) by (unfold D; lra). assert (Q := Rmult_lt_0_compat _ _ Hw P). nra.
  - assert (P : w * (dist2 y c - dist2 x c) <= 0) by nra. nra.
  - assert (P : D < 0) by (unfold D; lra). assert (Q : w * D < 0) by nra. nra.
  - assert (P : 0 <= w * (dist2 y c - dist2 x c)) by nra. nra.
Qed.
Print Assumptions C74_reversed.

Lemma dist2_triangle : forall x y c, length x = length y -> length c = length x -> dist2 x y <= 2 * (dist2 x c + dist2 y c).
Proof.
  induction x as [|a x IH]; intros [|b y] [|e c] L1 L2; cbn in L1, L2; try lia; cbn [dist2]; [lra|].
  specialize (IH y c ltac:(lia) ltac:(lia)). assert (P := pow2_ge_0 (a - e + (b - e))). nra.
Qed.

Theorem C74_where : forall delta w c x y, 0 < delta -> 0 < w -> delta * w < 2 -> length x = length c -> length y = length c ->
  (* both samples nearer to the centre than 1/(2 delta) *)
  (4 * delta ^ 2 * dist2 x c < 1 -> 4 * delta ^ 2 * dist2 y c < 1 -> excess delta w c x y < 1) /\
  (* one sample far from the centre *)
  (8 < delta ^ 2 * (delta * w) ^ 2 * (1 - delta * w / 4) * dist2 x c -> 1 < excess delta w c x y) /\
  (8 < delta ^ 2 * (delta * w) ^ 2 * (1 - delta * w / 4) * dist2 y c -> 1 < excess delta w c x y) /\
  (* a large move *)
  (1 < delta ^ 2 * (1 - delta * w / 4) * (1 - delta * w / 2) * dist2 x y -> 1 < excess delta w c x y).
Proof.
  intros delta w c x y Hd Hw Ht Lx Ly. unfold excess.
  assert (T0 : 0 < delta * w) by (apply Rmult_lt_0_compat; auto). set (t := delta * w) in *.
  assert (X0 := dist2_nonneg x c). assert (Y0 := dist2_nonneg y c). assert (Z0 := dist2_nonneg x y).
  assert (TR := dist2_triangle x y c ltac:(congruence) ltac:(congruence)).
  set (A := dist2 x c) in *. set (B := dist2 y c) in *. set (Z := dist2 x y) in *.
  assert (D2 : 0 < delta ^ 2) by (apply pow_lt; auto). set (d := delta ^ 2) in *.
  assert (P1 : 0 < d * (1 - t / 4)) by (apply Rmult_lt_0_compat; lra).
  assert (T2 : 0 <= t ^ 2) by apply pow2_ge_0.
  assert (N1 : 0 <= 2 * (1 - t / 2) * Z) by (apply Rmult_le_pos; lra).
  assert (N2 : 0 <= (t / 2) ^ 2 * A) by (apply Rmult_le_pos; [apply pow2_ge_0|auto]).
  assert (N3 : 0 <= (t / 2) ^ 2 * B) by (apply Rmult_le_pos; [apply pow2_ge_0|auto]).
  repeat split.
  - intros HA HB.
    assert (I1 : 2 * (1 - t / 2) * Z + (t / 2) ^ 2 * (A + B) <= (4 * (1 - t / 2) + (t / 2) ^ 2) * (A + B)).
    { assert (2 * (1 - t / 2) * Z <= 2 * (1 - t / 2) * (2 * (A + B))) by (apply Rmult_le_compat_l; lra). nra. }
    assert (I2 : (4 * (1 - t / 2) + (t / 2) ^ 2) * (A + B) <= 4 * (A + B)) by (apply Rmult_le_compat_r; [lra|nra]).
    assert (I3 : d / 2 * (1 - t / 4) * (2 * (1 - t / 2) * Z + (t / 2) ^ 2 * (A + B)) <= d / 2 * (1 - t / 4) * (4 * (A + B))).
    { apply Rmult_le_compat_l; lra. }
    assert (I4 : d / 2 * (1 - t / 4) * (4 * (A + B)) <= d / 2 * 1 * (4 * (A + B))).
    { apply Rmult_le_compat_r; [lra|]. apply Rmult_le_compat_l; lra. }
    lra.
  - intros H. assert (I : d / 2 * (1 - t / 4) * ((t / 2) ^ 2 * A) <= d / 2 * (1 - t / 4) * (2 * (1 - t / 2) * Z + (t / 2) ^ 2 * (A + B))).
    { apply Rmult_le_compat_l; lra. } nra.
  - intros H. assert (I : d / 2 * (1 - t / 4) * ((t / 2) ^ 2 * B) <= d / 2 * (1 - t / 4) * (2 * (1 - t / 2) * Z + (t / 2) ^ 2 * (A + B))).
    { apply Rmult_le_compat_l; lra. } nra.
  - intros H. assert (I : d / 2 * (1 - t / 4) * (2 * (1 - t / 2) * Z) <= d / 2 * (1 - t / 4) * (2 * (1 - t / 2) * Z + (t / 2) ^ 2 * (A + B))).
    { apply Rmult_le_compat_l; lra. } nra.
Qed.
Print Assumptions C74_where.

(** ** many parameters *)
Lemma noise_part : forall delta w c x y, length c = length x -> length y = length x ->
  nrm2 (vsub (arr y) (pulled delta w c x)) <= 2 * (dist2 x y + (delta * w) ^ 2 * dist2 x c).
Proof.
  intros delta w c x; revert c; induction x as [|a x IH]; intros [|b c] [|e y] Lc Ly; cbn in Lc, Ly; try lia.
  - cbn. lra.
  - specialize (IH c y ltac:(lia) ltac:(lia)). unfold nrm2, vsub, pulled, arr in *.
    cbn [combine map map2 rsum fold_right fst snd dist2] in *. unfold rsum in IH. rewrite Cmod_sq. cbn [fst snd RtoC Cminus Cplus Copp].
    set (t := delta * w) in *. assert (P := pow2_ge_0 (e - a - t * (a - b))).
    replace (e + - (a - delta * (w * (a - b)))) with (e - a + t * (a - b)) by (unfold t; ring). 
    replace ((0 + - 0) ^ 2) with 0 by ring. nra.
Qed.

(** the noise sqrt(2 delta) xi of a proposal with |xi|^2 at least m: while the
    pull to the centre is not stronger than the noise, enough parameters (noise
    vectors are about as long as there are parameters) reverse the rule *)
Theorem C74_many : forall G (R0 : rng G) f pr q n w c delta m x y,
  well f pr q n w c -> 0 < w -> 0 < delta -> delta * w < 2 -> length x = n -> length y = n ->
  2 * delta * m <= nrm2 (vsub (arr y) (pulled delta w c x)) -> 2 * (delta * w) ^ 2 * dist2 x c <= delta * m ->
  2 < delta ^ 3 * m * (1 - delta * w / 4) * (1 - delta * w / 2) ->
  exists a, mh_logalpha (mcmc_ops R0 f pr q) delta (arr x) (arr y) (RtoC a) /\ (accept_prob a = 1 <-> dist2 x c <= dist2 y c).
Proof.
  intros G R0 f pr q n w c delta m x y W Hw Hd Ht Lx Ly HN HP HM. assert (Lc : length c = n) by apply W.
  destruct (C74_reversed G R0 f pr q n w c delta x y W Hw Lx Ly) as (a & A & _ & B). exists a. split; [exact A|]. apply B.
  apply (C74_where delta w c x y Hd Hw Ht ltac:(congruence) ltac:(congruence)).
  assert (NP := noise_part delta w c x y ltac:(congruence) ltac:(congruence)).
  assert (DM : delta * m / 2 <= dist2 x y) by lra.
  assert (T0 : 0 < delta * w) by (apply Rmult_lt_0_compat; auto). set (t := delta * w) in *.
  assert (K : 0 < delta ^ 2 * (1 - t / 4) * (1 - t / 2)).
  { apply Rmult_lt_0_compat; [apply Rmult_lt_0_compat; [apply pow_lt; auto|lra]|lra]. }
  apply Rlt_le_trans with (delta ^ 2 * (1 - t / 4) * (1 - t / 2) * (delta * m / 2)); [|apply Rmult_le_compat_l; lra].
  replace (delta ^ 2 * (1 - t / 4) * (1 - t / 2) * (delta * m / 2)) with (delta ^ 3 * m * (1 - t / 4) * (1 - t / 2) / 2) by field. lra.
Qed.
Print Assumptions C74_many.

(** ** runs that start far away *)
Lemma dist2_moved : forall delta w c x z, length c = length x -> length z = length x -> 0 < delta -> 0 < w -> delta * w < 2 ->
  let y := map2 (fun p b => fst p - delta * (w * (fst p - snd p)) + sqrt (2 * delta) * b) (combine x c) z in
  length y = length x /\
  dist2 y c <= (1 - approach delta w / 2) * dist2 x c + 4 * delta / approach delta w * dist2 z (repeat 0 (length x)).
Proof.
  intros delta w c x z Lc Lz Hd Hw Ht. unfold approach. assert (T0 : 0 < delta * w) by (apply Rmult_lt_0_compat; auto).
  set (t := delta * w) in *. set (g := t * (2 - t)). assert (G0 : 0 < g) by (apply Rmult_lt_0_compat; lra).
  assert (G1 : g <= 1) by (unfold g; assert (0 <= (t - 1) ^ 2) by apply pow2_ge_0; nra).
  assert (SQ : sqrt (2 * delta) * sqrt (2 * delta) = 2 * delta) by (apply sqrt_sqrt; lra). set (s := sqrt (2 * delta)) in *.
  revert c z Lc Lz. induction x as [|a x IH]; intros [|b c] [|e z] Lc Lz; cbn in Lc, Lz; try lia.
  - cbn. split; [reflexivity|lra].
  - destruct (IH c z ltac:(lia) ltac:(lia)) as (L & I). cbn [combine map2 fst snd length repeat dist2]. split; [congruence|].
    enough (E : (a - delta * (w * (a - b)) + s * e - b) ^ 2 <= (1 - g / 2) * (a - b) ^ 2 + 4 * delta / g * (e - 0) ^ 2) by lra.
    clear IH I. replace (a - delta * (w * (a - b)) + s * e - b) with ((1 - t) * (a - b) + s * e) by (unfold t; ring).
    set (u := a - b). replace ((e - 0) ^ 2) with (e * e) by ring.
    assert (Q : (1 - t) * (1 - t) = 1 - g) by (unfold g; ring).
    (* 2 p b <= (g/2) u^2 + (2/g)(1-g) b^2 *)
    assert (C1 : 0 <= / g) by (left; apply Rinv_0_lt_compat; auto).
    assert (S1 : 0 <= (g * u - 2 * ((1 - t) * (s * e))) ^ 2) by apply pow2_ge_0.
    assert (S2 : 4 * (1 - t) * u * (s * e) * g <= g * g * u * u + 4 * (1 - g) * (2 * delta) * (e * e)).
    { replace (4 * (1 - g) * (2 * delta) * (e * e)) with (4 * ((1 - t) * (1 - t)) * (s * s) * (e * e)) by (rewrite Q, SQ; ring). nra. }
    assert (S3 : 2 * (1 - t) * u * (s * e) <= g / 2 * (u * u) + 4 * delta / g * (1 - g) * (e * e)).
    { apply Rmult_le_reg_r with (2 * g); [lra|]. replace ((g / 2 * (u * u) + 4 * delta / g * (1 - g) * (e * e)) * (2 * g)) with
        (g * g * u * u + 4 * (1 - g) * (2 * delta) * (e * e)) by (field; lra). lra. }
    replace (((1 - t) * u + s * e) ^ 2) with ((1 - t) * (1 - t) * (u * u) + 2 * (1 - t) * u * (s * e) + s * s * (e * e)) by ring.
    rewrite Q, SQ. replace (4 * delta / g * (e * e)) with (4 * delta / g * (1 - g) * (e * e) + 4 * delta * (e * e)) by (field; lra).
    assert (0 <= delta * (e * e)) by (apply Rmult_le_pos; [lra|nra]). simpl. lra.
Qed.

Lemma rejected : forall G (R0 : rng G) f pr q n w c delta k u x g acc x' d' g' i,
  good_rng R0 -> well f pr q n w c -> n_complex q = false -> n_lmda q <> 0 -> 0 < w -> 0 < delta -> delta * w < 2 -> 0 < u ->
  (forall g, dist2 (fst (g_randn R0 n g)) (repeat 0 n) <= k) -> (forall g, u <= fst (g_rand R0 g)) ->
  length x = n -> too_far delta w k u c x ->
  mh_trans (mcmc_ops R0 f pr q) false i (arr x, delta, g) acc (x', d', g') -> acc = false /\ x' = arr x /\ d' = delta.
Proof.
  intros G R0 f pr q n w c delta k u x g acc x' d' g' i GR W NC NZ Hw Hd Ht Hu BN BU Lx (F1 & F2 & F3)
    (y & g1 & lu & a & (dx & gx & px & E1 & E2 & E3 & E4) & LA & LR & -> & -> & ->).
  cbn [mcmc_ops o_forward o_gradg o_proxf o_step o_logrand o_kltb] in *.
  assert (W' := W). destruct W' as (EN & Lc & e & WW). destruct (WW x Lx) as (dx' & l2x & px' & A1 & A2 & A3 & A4).
  rewrite A1 in E1. apply Ok_inj in E1. subst dx'. rewrite A2 in E3. apply Ok_inj in E3. subst px.
  rewrite A3 in E2. apply Ok_inj in E2. subst gx.
  set (z := fst (g_randn R0 n g)). assert (Lz : length z = n) by apply GR.
  assert (EY : y = arr (map2 (fun p b => fst p - delta * (w * (fst p - snd p)) + sqrt (2 * delta) * b) (combine x c) z)).
  { rewrite (chain_step_value R0 f q delta (arr x) (arr x) _ g n) in E4; auto.
    - rewrite NC, draw_real in E4. unfold noise in E4. destruct (g_randn R0 n g) as [z0 g0] eqn:Ez. cbn in z. subst z.
      injection E4 as E4 _. rewrite <- E4. clear - Lc Lx Lz NZ. unfold langevin_drift, vadd, vscal, vsub, arr.
      revert c z0 n Lc Lx Lz. induction x as [|a x IH]; intros [|b c] [|e z] n Lc Lx Lz; cbn in Lc, Lx, Lz; try lia; [reflexivity|].
      cbn [combine map map2 fst snd]. f_equal; [apply C_ext; cbn; ring|]. destruct n; [lia|]. apply (IH c z n); lia.
    - apply arr_length || (rewrite arr_length; auto).
    - rewrite arr_length; auto.
    - rewrite map_length, combine_length. lia. }
  destruct (dist2_moved delta w c x z ltac:(congruence) ltac:(congruence) Hd Hw Ht) as (Ly & DY).
  set (yr := map2 _ (combine x c) z) in *. subst y.
  apply (C74_ratio G R0 f pr q n w c delta x yr a W Lx ltac:(congruence)) in LA. subst a.
  unfold logrand in LR. destruct (g_rand R0 g1) as [v g2] eqn:Ev. injection LR as <- <-.
  assert (V : u <= v) by (specialize (BU g1); rewrite Ev in BU; exact BU).
  enough (K : clex_ltb (RtoC (ln v)) (RtoC (w * (dist2 yr c - dist2 x c) * (excess delta w c x yr - 1))) = false)
    by (rewrite K; auto).
  assert (LV : ln u <= ln v) by (destruct V as [V | ->]; [left; apply ln_increasing; lra|lra]).
  assert (T0 : 0 < delta * w) by (apply Rmult_lt_0_compat; auto).
  assert (G0 : 0 < approach delta w) by (unfold approach; apply Rmult_lt_0_compat; lra).
  set (ga := approach delta w) in *.
  assert (Y0 := dist2_nonneg yr c). assert (Z0 := dist2_nonneg x yr). assert (X0 := dist2_nonneg x c).
  assert (K0 : dist2 z (repeat 0 (length x)) <= k) by (rewrite Lx; apply BN).
  (* nearer by a share of the distance *)
  assert (H1 : 4 * delta / ga * dist2 z (repeat 0 (length x)) <= ga / 4 * dist2 x c).
  { apply Rle_trans with (4 * delta / ga * k).
    - apply Rmult_le_compat_l; [|exact K0]. apply Rmult_le_pos; [lra|left; apply Rinv_0_lt_compat; auto].
    - apply Rmult_le_reg_r with (4 * ga); [lra|]. replace (4 * delta / ga * k * (4 * ga)) with (16 * delta * k) by (field; lra). nra. }
  assert (H2 : ga / 4 * dist2 x c <= dist2 x c - dist2 yr c) by lra.
  (* and the second factor is at least 1 *)
  assert (H3 : 2 <= excess delta w c x yr).
  { unfold excess. assert (D2 : 0 < delta ^ 2) by (apply pow_lt; auto). set (t := delta * w) in *.
    assert (P1 : 0 < delta ^ 2 * (1 - t / 4)) by (apply Rmult_lt_0_compat; lra).
    assert (N1 : 0 <= 2 * (1 - t / 2) * dist2 x yr) by (apply Rmult_le_pos; lra).
    assert (N3 : 0 <= (t / 2) ^ 2 * dist2 yr c) by (apply Rmult_le_pos; [apply pow2_ge_0|auto]).
    assert (I : delta ^ 2 / 2 * (1 - t / 4) * ((t / 2) ^ 2 * dist2 x c) <=
                delta ^ 2 / 2 * (1 - t / 4) * (2 * (1 - t / 2) * dist2 x yr + (t / 2) ^ 2 * (dist2 x c + dist2 yr c))).
    { apply Rmult_le_compat_l; lra. } nra. }
  assert (GX : 0 <= ga / 4 * dist2 x c) by (apply Rmult_le_pos; lra).
  assert (H4 : w * (dist2 yr c - dist2 x c) * (excess delta w c x yr - 1) <= - (w * (ga / 4 * dist2 x c))).
  { assert (Q1 : w * (ga / 4 * dist2 x c) <= w * (dist2 x c - dist2 yr c)) by (apply Rmult_le_compat_l; lra).
    assert (Q2 : 0 <= w * (ga / 4 * dist2 x c)) by (apply Rmult_le_pos; lra).
    assert (Q3 : w * (dist2 x c - dist2 yr c) * 1 <= w * (dist2 x c - dist2 yr c) * (excess delta w c x yr - 1)) by (apply Rmult_le_compat_l; lra).
    lra. }
  assert (H5 : w * (dist2 yr c - dist2 x c) * (excess delta w c x yr - 1) <= ln v).
  { replace (w * (ga / 4 * dist2 x c)) with (w * ga / 4 * dist2 x c) in H4 by field. lra. }
  destruct (clex_ltb _ _) eqn:EB; [|reflexivity]. apply clex_ltb_spec in EB. unfold clex_lt in EB. cbn in EB. lra.
Qed.

Lemma rejected_path : forall G (R0 : rng G) f pr q n w c delta k u x,
  good_rng R0 -> well f pr q n w c -> n_complex q = false -> n_lmda q <> 0 -> 0 < w -> 0 < delta -> delta * w < 2 -> 0 < u ->
  (forall g, dist2 (fst (g_randn R0 n g)) (repeat 0 n) <= k) -> (forall g, u <= fst (g_rand R0 g)) ->
  length x = n -> too_far delta w k u c x ->
  forall tr i g, mh_path (mcmc_ops R0 f pr q) false i (arr x, delta, g) tr ->
  map (fun p => b2z (fst p)) tr = repeat 0%Z (length tr) /\ forall j s, nth_error tr j <> Some (true, s).
Proof.
  intros G R0 f pr q n w c delta k u x GR W NC NZ Hw Hd Ht Hu BN BU Lx TF.
  induction tr as [|[acc [[x' d'] g']] tr IH]; intros i g P; [split; [reflexivity|intros [|j] s; discriminate]|].
  inversion P as [|? ? ? ? ? T P']; subst.
  destruct (rejected _ _ _ _ _ _ _ _ _ _ _ _ _ _ _ _ _ _ GR W NC NZ Hw Hd Ht Hu BN BU eq_refl TF T) as (-> & -> & ->).
  destruct (IH _ _ P') as (I1 & I2). split; [cbn; rewrite I1; reflexivity|]. intros [|j] s; [discriminate|apply I2].
Qed.

(** runs with a fixed step size that start too far away never accept a proposal *)
Theorem C74_locked : forall G (R0 : rng G) f pr q n w c k u x prm fuel wd m N,
  good_rng R0 -> well f pr q n w c -> shapes_fit f pr n m -> n_complex q = false -> n_lmda q <> 0 ->
  let delta := i_delta (w_inst wd) in
  0 < w -> 0 < delta -> delta * w < 2 -> 0 < u ->
  (forall g, dist2 (fst (g_randn R0 n g)) (repeat 0 n) <= k) -> (forall g, u <= fst (g_rand R0 g)) ->
  length x = n -> too_far delta w k u c x ->
  sized (w_inst wd) N -> p_nsamples prm = Z.of_nat N -> (0 < N)%nat ->
  exists wd', pxmala_run (mcmc_ops R0 f pr q) prm false fuel (StartArray [n] (arr x)) wd = (wd', NoFuel) /\
    i_acc (w_inst wd') = Some (repeat 0%Z fuel) /\ i_chain (w_inst wd') = i_chain (w_inst wd) /\
    i_logPi (w_inst wd') = i_logPi (w_inst wd).
Proof.
  intros G R0 f pr q n w c k u x prm fuel wd m N GR W SF NC NZ delta Hw Hd Ht Hu BN BU Lx TF SZ EN HN.
  set (o := mcmc_ops R0 f pr q).
  assert (NX : forall x0 g0 tr i, mh_starts o (StartArray [n] (arr x)) (w_rng wd) x0 g0 ->
    mh_path o false i (x0, delta, g0) tr -> map (fun p => b2z (fst p)) tr = repeat 0%Z (length tr) /\ forall j s, nth_error tr j <> Some (true, s)).
  { intros x0 g0 tr i (S0 & _) P. unfold o in S0. cbn [mcmc_ops o_init choose_start] in S0.
    rewrite (proj1 W) in S0. cbn in S0. rewrite arr_length, Lx, Nat.eqb_refl in S0. injection S0 as <- <-.
    exact (rejected_path G R0 f pr q n w c delta k u x GR W NC NZ Hw Hd Ht Hu BN BU Lx TF _ _ _ P). }
  assert (AG : forall (tr : list (bool * SamplerSpec.mh_state vec R G)) idx, (forall j s, nth_error tr j <> Some (true, s)) ->
    accepted_on_grid (p_nburn prm) (p_ngap prm) tr idx -> idx = @nil nat).
  { intros tr [|a idx] NO (_ & A); [reflexivity|]. exfalso. destruct (proj1 (A a) (or_introl eq_refl)) as (_ & s & E). exact (NO _ _ E). }
  destruct (proj2 (C06_numerical_runs_end_iff G R0 f pr q prm false (StartArray [n] (arr x)) wd n m N
      GR SF NZ ltac:(split; [reflexivity|rewrite arr_length; exact Lx]) SZ EN) fuel) as (wd' & [E | E]); fold o in E.
  - exfalso. destruct (mala_ref_ret _ _ _ _ _ _ _ _ SZ EN E) as (j & _ & (x0 & g0 & tr & idx & l & S0 & MP & LT & A & LL & F2 & _)).
    destruct (NX _ _ _ _ S0 MP) as (_ & NO). rewrite (AG _ _ NO A) in F2. inversion F2; subst l. cbn in LL. lia.
  - destruct (mala_ref_stop _ _ _ _ _ _ _ _ SZ EN E) as (j & _ & (x0 & g0 & tr & idx & l & S0 & MP & LT & A & LL & F2 & RC & EA & _)).
    destruct (NX _ _ _ _ S0 MP) as (RP & NO). rewrite (AG _ _ NO A) in F2. inversion F2; subst l.
    exists wd'. split; [exact E|]. split; [rewrite EA, RP, LT; reflexivity|].
    destruct RC as (RL & _ & _ & _ & RV). cbn [map] in RL, RV. unfold rec_arr in RL, RV. split.
    + destruct (i_chain (w_inst wd)), (i_chain (w_inst wd')); try (destruct RV; fail); auto.
      destruct RV as (rows & FF & _ & ->). inversion FF; subst. reflexivity.
    + destruct (i_logPi (w_inst wd)), (i_logPi (w_inst wd')); try (destruct RL; fail); auto.
      destruct RL as (rows & FF & _ & ->). inversion FF; subst. reflexivity.
Qed.
Print Assumptions C74_locked.

(** ** parameters observed directly *)
(** n parameters, each observed with weight w; the data are c *)
Definition direct (n : nat) (w : R) (c : list R) : forward_op :=
  mkFwd (mkData (arr c) false) (scaled_identity n (RtoC w)) "analysis" None (Some id_meas) (Some n).
Definition free_prior : prior_obj := mkPrior (fun _ => Ok 0) (fun X => Ok X).

Lemma arr_sub : forall x c, length x = length c -> np_sub (arr x) (arr c) = Ok (arr (map (fun p => fst p - snd p) (combine x c))).
Proof.
  intros x c L. rewrite np_sub_same by (rewrite !arr_length; auto). f_equal. unfold vsub, arr. revert c L.
  induction x as [|a x IH]; intros [|b c] L; cbn in L; try lia; [reflexivity|]. cbn [map map2 combine fst snd]. f_equal; [apply C_ext; cbn; ring|].
  apply IH. lia.
Qed.

Theorem C74_wells : forall n w c q, length c = n ->
  well (direct n w c) free_prior q n w c /\ shapes_fit (direct n w c) free_prior n n.
Proof.
  intros n w c q Lc. split.
  - split; [reflexivity|]. split; [exact Lc|]. exists 0. intros x Lx.
    assert (LM : forall a b, length a = n -> length b = n -> length (arr (map (fun p => fst p - snd p) (combine a b))) = n).
    { intros a b La Lb. rewrite arr_length, map_length, combine_length. lia. }
    exists (arr x). eexists _, _. split; [reflexivity|]. split; [reflexivity|]. split.
    + unfold fo_gradg, gradg_analysis, direct. cbn [fo_setting String.eqb Ascii.eqb Bool.eqb fo_measurement attr rbind fo_data d_val fo_invcov].
      rewrite arr_sub by congruence. cbn [rbind]. rewrite np_dot_ok by (cbn; auto). cbn [rbind id_meas ms_adjoint].
      rewrite matvec_scaled_identity by auto. f_equal. unfold vscal, arr. rewrite !map_map. apply map_ext. intros p. apply C_ext; cbn; ring.
    + unfold logpi, direct. cbn [fo_data d_val fo_invcov]. rewrite arr_sub by congruence. cbn [rbind].
      rewrite np_dot_ok by (cbn; auto). cbn [rbind]. rewrite matvec_scaled_identity by auto. unfold np_vdot.
      unfold vscal at 1. rewrite map_length, Nat.eqb_refl. cbn [rbind free_prior pr_prior].
      assert (E : cdot (arr (map (fun p => fst p - snd p) (combine c x))) (vscal (RtoC w) (arr (map (fun p => fst p - snd p) (combine c x)))) = RtoC (w * dist2 x c)).
      { clear - Lc Lx. assert (L : length x = length c) by congruence. clear Lc Lx. revert c L.
        induction x as [|a x IH]; intros [|b c] L; cbn in L; try lia; [cbn; f_equal; ring|].
        specialize (IH c ltac:(lia)). unfold cdot, vscal, arr in *. cbn [map map2 combine fst snd csum fold_right dist2] in *.
        unfold csum in IH. rewrite IH. apply C_ext; cbn; ring. }
      rewrite E. do 3 f_equal. apply C_ext; cbn; ring.
  - unfold shapes_fit. cbn [direct fo_nparams fo_data d_val fo_invcov scaled_identity m_rows m_cols]. rewrite arr_length.
    split; [reflexivity|]. split; [exact Lc|]. split; [reflexivity|]. split; [reflexivity|].
    split; [intros x Hx; exists x; split; [reflexivity|exact Hx]|].
    split; [|split; [intros x Hx; exists x; split; [reflexivity|exact Hx]|intros; eexists; reflexivity]].
    intros d Ld. unfold fo_gradg, gradg_analysis, direct. cbn [fo_setting String.eqb Ascii.eqb Bool.eqb fo_measurement attr rbind fo_data d_val fo_invcov].
    rewrite np_sub_same by (rewrite arr_length; congruence). cbn [rbind].
    assert (LS : length (vsub d (arr c)) = n) by (rewrite vsub_length; rewrite ?arr_length; congruence).
    rewrite np_dot_ok by (cbn; auto). cbn [rbind id_meas ms_adjoint]. eexists. split; [reflexivity|]. rewrite matvec_scaled_identity by auto.
    unfold vscal. rewrite map_length. exact LS.
Qed.
Print Assumptions C74_wells.

(** ** refuted: PxMALA moves on wherever it is started *)
Lemma far_start : forall delta w k u, 0 < delta -> 0 < w -> delta * w < 2 -> 0 < u < 1 -> exists r, 0 <= r /\ too_far delta w k u [0] [r].
Proof.
  intros delta w k u Hd Hw Ht Hu. assert (T0 : 0 < delta * w) by (apply Rmult_lt_0_compat; auto).
  assert (G0 : 0 < approach delta w) by (unfold approach; apply Rmult_lt_0_compat; lra).
  set (ga := approach delta w) in *. assert (G2 : 0 < ga ^ 2) by (apply pow_lt; auto).
  set (b := delta ^ 2 * (delta * w) ^ 2 * (1 - delta * w / 4)).
  assert (B0 : 0 < b) by (unfold b; repeat apply Rmult_lt_0_compat; try (apply pow_lt; auto); lra).
  set (e := w * ga / 4). assert (E0 : 0 < e) by (unfold e; assert (0 < w * ga) by (apply Rmult_lt_0_compat; auto); lra).
  set (r := 1 + Rabs (16 * delta * k / ga ^ 2) + 16 / b + Rabs (- ln u / e)).
  assert (A1 := Rabs_pos (16 * delta * k / ga ^ 2)). assert (A2 := Rabs_pos (- ln u / e)).
  assert (A3 : 0 <= 16 / b) by (apply Rmult_le_pos; [lra|left; apply Rinv_0_lt_compat; auto]).
  assert (L1 := Rle_abs (16 * delta * k / ga ^ 2)). assert (L2 := Rle_abs (- ln u / e)).
  assert (R1 : 1 <= r) by (unfold r; lra). assert (RR : r <= dist2 [r] [0]) by (cbn; nra).
  exists r. split; [lra|]. unfold too_far. fold ga b e. repeat split.
  - apply Rle_trans with (ga ^ 2 * r); [|apply Rmult_le_compat_l; lra].
    replace (16 * delta * k) with (ga ^ 2 * (16 * delta * k / ga ^ 2)) by (field; lra). apply Rmult_le_compat_l; [lra|]. unfold r. lra.
  - apply Rle_trans with (b * r); [|apply Rmult_le_compat_l; lra].
    replace 16 with (b * (16 / b)) by (field; lra). apply Rmult_le_compat_l; [lra|]. unfold r. lra.
  - apply Rle_trans with (e * r); [|apply Rmult_le_compat_l; lra].
    replace (- ln u) with (e * (- ln u / e)) by (field; lra). apply Rmult_le_compat_l; [lra|]. unfold r. lra.
Qed.

(** one parameter observed with weight 1, data 0: for every step size below 2 and
    all bounds on the random numbers there is a start from which MYULA returns
    and PxMALA rejects for ever *)
Theorem C74_moves_on_refuted : exists f pr q, well f pr q 1 1 [0] /\ shapes_fit f pr 1 1 /\ n_complex q = false /\ n_lmda q = 1 /\
  forall delta k u, 0 < delta < 2 -> 0 < u < 1 -> exists r, 0 <= r /\
    forall G (R0 : rng G) prm wd N, good_rng R0 ->
      (forall g, dist2 (fst (g_randn R0 1 g)) [0] <= k) -> (forall g, u <= fst (g_rand R0 g)) ->
      i_delta (w_inst wd) = delta -> sized (w_inst wd) N -> p_nsamples prm = Z.of_nat N -> (0 < N)%nat -> ~ line_array_missing (w_inst wd) ->
      (exists fuel wd', myula_run (mcmc_ops R0 f pr q) prm fuel (StartArray [1%nat] [RtoC r]) wd = (wd', Ret tt)) /\
      forall fuel, exists wd', pxmala_run (mcmc_ops R0 f pr q) prm false fuel (StartArray [1%nat] [RtoC r]) wd = (wd', NoFuel).
Proof.
  set (q := mkNum 1 1 1 false). exists (direct 1 1 [0]), free_prior, q.
  destruct (C74_wells 1 1 [0] q eq_refl) as (W & SF). split; [exact W|]. split; [exact SF|]. split; [reflexivity|]. split; [reflexivity|].
  intros delta k u Hd Hu. destruct (far_start delta 1 k u ltac:(lra) ltac:(lra) ltac:(lra) Hu) as (r & P & TF). exists r. split; [exact P|].
  intros G R0 prm wd N GR BN BU ED SZ EN HN LM. split.
  - exists (total_iters (p_nburn prm) (p_ngap prm) N).
    apply (proj1 (C01_numerical_runs_end G R0 (direct 1 1 [0]) free_prior q prm _ (StartArray [1%nat] [RtoC r]) wd 1 1 N GR SF
      ltac:(cbn; lra) ltac:(split; reflexivity) SZ EN LM)). lia.
  - intros fuel. destruct (C74_locked G R0 (direct 1 1 [0]) free_prior q 1 1 [0] k u [r] prm fuel wd 1 N GR W SF eq_refl
      ltac:(cbn; lra) ltac:(lra) ltac:(rewrite ED; lra) ltac:(rewrite ED; lra) ltac:(lra) BN BU eq_refl
      ltac:(rewrite ED; exact TF) SZ EN HN) as (wd' & E & _). exists wd'. exact E.
Qed.
Print Assumptions C74_moves_on_refuted.

(** refuted: a proposal that Metropolis-Hastings accepts with certainty is accepted
    with a probability that does not become arbitrarily small *)
Theorem C74_certain_refuted : exists f pr q, well f pr q 1 1 [0] /\
  forall delta p, 0 < delta < 2 -> 0 < p < 1 -> exists x y lx ly a, 
    target_at f pr q (arr [x]) (RtoC lx) /\ target_at f pr q (arr [y]) (RtoC ly) /\
    accept_prob (ly + log_gauss delta (pulled delta 1 [0] [y]) (arr [x]) - lx - log_gauss delta (pulled delta 1 [0] [x]) (arr [y])) = 1 /\
    (forall G (R0 : rng G), mh_logalpha (mcmc_ops R0 f pr q) delta (arr [x]) (arr [y]) (RtoC a)) /\ accept_prob a <= p.
Proof.
  set (q := mkNum 1 1 1 false). exists (direct 1 1 [0]), free_prior, q.
  destruct (C74_wells 1 1 [0] q eq_refl) as (W & SF). split; [exact W|].
  intros delta p Hd Hp. destruct (far_start delta 1 0 p ltac:(lra) ltac:(lra) ltac:(lra) Hp) as (r & P & (F1 & F2 & F3)).
  destruct (C74_proper (direct 1 1 [0]) free_prior q 1 1 [0] delta [r] [0] W eq_refl eq_refl ltac:(lra)) as (_ & lx & ly & A & B & E).
  exists r, 0, lx, ly, (1 * (dist2 [0] [0] - dist2 [r] [0]) * (excess delta 1 [0] [r] [0] - 1)).
  split; [exact A|]. split; [exact B|]. split; [|split].
  - rewrite E. apply prob_one. assert (0 <= dist2 [r] [0]) by apply dist2_nonneg. cbn [dist2] in *. nra.
  - intros G R0. apply (C74_ratio G R0 (direct 1 1 [0]) free_prior q 1 1 [0] delta [r] [0] _ W eq_refl eq_refl). reflexivity.
  - unfold accept_prob. apply Rle_trans with (1 := Rmin_r _ _). rewrite <- (exp_ln p) by lra.
    set (X := dist2 [r] [0]) in *. assert (X0 : 0 <= X) by apply dist2_nonneg.
    assert (EX : 2 <= excess delta 1 [0] [r] [0]).
    { unfold excess. assert (Z0 := dist2_nonneg [r] [0]). fold X. fold X in Z0. assert (D0 : dist2 [0] [0] = 0) by (cbn; ring). rewrite D0.
      assert (D2 : 0 < delta ^ 2) by (apply pow_lt; lra). rewrite Rmult_1_r in *.
      assert (P1 : 0 < delta ^ 2 * (1 - delta / 4)) by (apply Rmult_lt_0_compat; lra).
      assert (N1 : 0 <= 2 * (1 - delta / 2) * X) by (apply Rmult_le_pos; lra).
      assert (I : delta ^ 2 / 2 * (1 - delta / 4) * ((delta / 2) ^ 2 * X) <=
                  delta ^ 2 / 2 * (1 - delta / 4) * (2 * (1 - delta / 2) * X + (delta / 2) ^ 2 * (X + 0))).
      { apply Rmult_le_compat_l; lra. } nra. }
    assert (A1 : approach delta 1 <= 1) by (unfold approach; assert (0 <= (delta - 1) ^ 2) by apply pow2_ge_0; nra).
    assert (A2 : 1 * approach delta 1 / 4 * X <= X) by nra.
    enough (1 * (dist2 [0] [0] - X) * (excess delta 1 [0] [r] [0] - 1) <= ln p) as [Q | Q]
      by (try (left; apply exp_increasing; exact Q); rewrite Q; lra).
    replace (dist2 [0] [0]) with 0 by (cbn; ring). nra.
Qed.
Print Assumptions C74_certain_refuted.

(** weight 1, data 0, step size 1: from 8 the proposal 4 has log ratio
    -48 (1/2 * 3/4 * (16 + 80/4) - 1) = -600; Metropolis-Hastings has +36 *)
Example C74_case : forall G (R0 : rng G),
  let q := mkNum 1 1 1 false in
  mh_logalpha (mcmc_ops R0 (direct 1 1 [0]) free_prior q) 1 (arr [8]) (arr [4]) (RtoC (- 600)) /\
  too_far 1 1 4 (/ 2) [0] [8] /\ - (1 * (dist2 [4] [0] - dist2 [8] [0]) * (2 + 1 * 1) / 4) = 36.
Proof.
  intros G R0 q. destruct (C74_wells 1 1 [0] q eq_refl) as (W & _). split; [|split].
  - apply (C74_ratio G R0 (direct 1 1 [0]) free_prior q 1 1 [0] 1 [8] [4] _ W eq_refl eq_refl). f_equal. unfold excess. cbn. field.
  - unfold too_far, approach. cbn. repeat split; try lra. rewrite <- ln_Rinv by lra. rewrite Rinv_inv.
    assert (L := exp_ineq1 1 ltac:(lra)). assert (K : ln 2 < ln (exp 1)) by (apply ln_increasing; lra). rewrite ln_exp in K. lra.
  - cbn. field.
Qed.

(** weight 1, data 0, step size 1: from 1 the proposal 4, whose noise has square 16,
    has log ratio 15 (3/8 (9 + 17/4) - 1) > 0; Metropolis-Hastings has -45/4 *)
Example C74_case_many : forall G (R0 : rng G),
  let q := mkNum 1 1 1 false in
  (exists a, mh_logalpha (mcmc_ops R0 (direct 1 1 [0]) free_prior q) 1 (arr [1]) (arr [4]) (RtoC a) /\ accept_prob a = 1) /\
  - (1 * (dist2 [4] [0] - dist2 [1] [0]) * (2 + 1 * 1) / 4) = - 45 / 4.
Proof.
  intros G R0 q. destruct (C74_wells 1 1 [0] q eq_refl) as (W & _). split; [|cbn; field].
  destruct (C74_many G R0 (direct 1 1 [0]) free_prior q 1 1 [0] 1 8 [1] [4] W ltac:(lra) ltac:(lra) ltac:(lra) eq_refl eq_refl) as (a & A & B).
  - unfold nrm2, pulled, arr, vsub. cbn [combine map map2 rsum fold_right fst snd]. rewrite Cmod_sq. cbn. lra.
  - cbn. lra.
  - cbn. lra.
  - exists a. split; [exact A|]. apply B. cbn. lra.
Qed.
