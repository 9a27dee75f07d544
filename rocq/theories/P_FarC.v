(** C75: the acceptance rule of PxMALA on complex samples. *)
From Coq Require Import List ZArith Lia Bool Reals Lra Psatz String.
From Coquelicot Require Import Coquelicot.
From Verif Require Import PyBase CVec Thresh Prior PriorSpec PriorProof Forward FwdProof Sampler SamplerSpec SamplerMain Mcmc McmcSpec McmcProof
  StepProof MeasProof P_Samplers P_Mcmc P_Works RSort FarSpec P_Far FarCSpec.
Import ListNotations.
Open Scope R_scope.
Notation length := List.length.

Lemma sqs_sym : forall x y, sqs x y = sqs y x.
Proof. induction x as [|a x IH]; intros [|b y]; cbn [sqs]; try reflexivity. rewrite IH. apply C_ext; cbn; ring. Qed.
Lemma cdist2_sym : forall x y, cdist2 x y = cdist2 y x.
Proof. induction x as [|a x IH]; intros [|b y]; cbn [cdist2]; try reflexivity. rewrite IH, !Cmod_sq. cbn. ring. Qed.
Lemma cdist2_nonneg : forall x y, 0 <= cdist2 x y.
Proof. induction x as [|a x IH]; intros [|b y]; cbn [cdist2]; try lra. generalize (pow2_ge_0 (Cmod (a - b)%C)) (IH y). lra. Qed.

Lemma cresidual_sum : forall lm delta w (c x y : vec), length c = length x -> length y = length x ->
  csum (map (fun z => z * z)%C (vsub (vsub y x)
    (vscal (RtoC (delta / 2)) (vsub (vscal lm (vsub x x)) (map (fun p => RtoC w * (fst p - snd p))%C (combine x c)))))) =
  (RtoC (1 - delta * w / 2) * sqs x y + RtoC (delta * w / 2) * sqs y c - RtoC (delta * w / 2 * (1 - delta * w / 2)) * sqs x c)%C.
Proof.
  intros lm delta w c x; revert c; induction x as [|a x IH]; intros [|b c] [|e y] Lc Ly; cbn in Lc, Ly; try lia.
  - cbn. apply C_ext; cbn; ring.
  - specialize (IH c y ltac:(lia) ltac:(lia)).
    unfold vsub, vscal in *. cbn [combine map map2 csum fold_right fst snd sqs] in *.
    unfold csum in IH. rewrite IH. destruct lm as [l1 l2], a as [a1 a2], b as [b1 b2], e as [e1 e2].
    generalize (sqs x y) (sqs y c) (sqs x c). intros [s1 s2] [s3 s4] [s5 s6]. apply C_ext; cbn; field.
Qed.

Lemma complex_transition : forall q delta w (c x y : vec), length c = length x -> length y = length x ->
  let s := (RtoC (1 - delta * w / 2) * sqs x y + RtoC (delta * w / 2) * sqs y c - RtoC (delta * w / 2 * (1 - delta * w / 2)) * sqs x c)%C in
  logtransition q delta x y x (map (fun p => RtoC w * (fst p - snd p))%C (combine x c)) = Ok (RtoC (- delta / 2) * (s * s))%C.
Proof.
  intros q delta w c x y Lc Ly s. rewrite C13_logtransition_value.
  - cbv zeta. rewrite cresidual_sum by auto. reflexivity.
  - reflexivity.
  - rewrite map_length, combine_length. lia.
  - auto.
Qed.

(** ** the ratio *)
Theorem C75_ratio : forall G (R0 : rng G) f pr q n w c delta x y a,
  cwell f pr q n w c -> length x = n -> length y = n ->
  (mh_logalpha (mcmc_ops R0 f pr q) delta x y a <->
   a = (RtoC (delta ^ 2 * w / 2 * (1 - delta * w / 4)) * (sqs y c - sqs x c) *
          (RtoC (2 * (1 - delta * w / 2)) * sqs x y + RtoC ((delta * w / 2) ^ 2) * (sqs x c + sqs y c))
        - RtoC (w * (cdist2 y c - cdist2 x c)))%C).
Proof.
  intros G R0 f pr q n w c delta x y a (EN & Lc & e & W) Lx Ly.
  destruct (W x Lx) as (dx & l2x & px & A1 & A2 & A3 & A4). destruct (W y Ly) as (dy & l2y & py & B1 & B2 & B3 & B4).
  assert (T1 := complex_transition q delta w c x y ltac:(congruence) ltac:(congruence)).
  assert (T2 := complex_transition q delta w c y x ltac:(congruence) ltac:(congruence)).
  cbv zeta in T1, T2. rewrite (sqs_sym y x) in T2.
  match type of T1 with _ = Ok ?v => set (v1 := v) in T1 end. match type of T2 with _ = Ok ?v => set (v2 := v) in T2 end.
  match goal with |- _ <-> a = ?r => set (rhs := r) end.
  assert (EX : (v2 + RtoC (e - w * cdist2 y c) - v1 - RtoC (e - w * cdist2 x c))%C = rhs).
  { unfold v1, v2, rhs. destruct (sqs x y) as [s1 s2], (sqs y c) as [s3 s4], (sqs x c) as [s5 s6]. apply C_ext; cbn; field. }
  split.
  - intros (dx' & gx & px' & lx & dy' & gy & py' & ly & qxy & qyx & E1 & E2 & E3 & E4 & E5 & E6 & E7 & E8 & E9 & E10 & ->).
    cbn [mcmc_ops o_forward o_gradg o_proxf o_logpi o_logtrans o_ksub o_kadd] in *.
    rewrite A1 in E1. apply Ok_inj in E1. subst dx'. rewrite B1 in E5. apply Ok_inj in E5. subst dy'.
    rewrite A3 in E2. apply Ok_inj in E2. subst gx. rewrite B3 in E6. apply Ok_inj in E6. subst gy.
    rewrite A2 in E3. apply Ok_inj in E3. subst px'. rewrite B2 in E7. apply Ok_inj in E7. subst py'.
    rewrite A4 in E4. apply Ok_inj in E4. subst lx. rewrite B4 in E8. apply Ok_inj in E8. subst ly.
    rewrite T1 in E9. apply Ok_inj in E9. subst qxy. rewrite T2 in E10. apply Ok_inj in E10. subst qyx.
    cbn [fst snd]. exact EX.
  - intros ->. eexists dx, _, x, _, dy, _, y, _, _, _.
    cbn [mcmc_ops o_forward o_gradg o_proxf o_logpi o_logtrans o_ksub o_kadd].
    split; [exact A1|]. split; [exact A3|]. split; [exact A2|]. split; [exact A4|].
    split; [exact B1|]. split; [exact B3|]. split; [exact B2|]. split; [exact B4|].
    split; [exact T1|]. split; [exact T2|]. cbn [fst snd]. symmetry. exact EX.
Qed.
Print Assumptions C75_ratio.

(** ** samples in one direction from the centre *)
Lemma seen_length : forall z c u, length u = length c -> length (seen z c u) = length c.
Proof. intros. unfold seen. rewrite map_length, combine_length. lia. Qed.

Lemma seen_sqs : forall z c u v, length u = length c -> length v = length c ->
  sqs (seen z c u) (seen z c v) = (z * z * RtoC (dist2 u v))%C /\
  sqs (seen z c u) c = (z * z * RtoC (dist2 u (repeat 0 (length c))))%C /\
  cdist2 (seen z c u) c = Cmod z ^ 2 * dist2 u (repeat 0 (length c)).
Proof.
  intros z c; induction c as [|b c IH]; intros [|e u] [|g v] Lu Lv; cbn in Lu, Lv; try lia.
  - cbn. split; [|split]; [apply C_ext; cbn; ring..|ring].
  - destruct (IH u v ltac:(lia) ltac:(lia)) as (I1 & I2 & I3). unfold seen in *.
    cbn [combine map fst snd sqs cdist2 dist2 length repeat] in *. rewrite I1, I2, I3. rewrite !Cmod_sq. destruct z as [z1 z2], b as [b1 b2].
    split; [|split]; [apply C_ext; cbn; ring..|cbn; ring].
Qed.

Theorem C75_phase : forall G (R0 : rng G) f pr q n w c delta z u v a,
  cwell f pr q n w c -> length u = n -> length v = n -> Cmod z = 1 ->
  let o := repeat 0 n in
  (mh_logalpha (mcmc_ops R0 f pr q) delta (seen z c u) (seen z c v) a <->
   a = (RtoC (w * (dist2 v o - dist2 u o)) * (z * z * z * z * RtoC (excess delta w o u v) - RtoC 1))%C).
Proof.
  intros G R0 f pr q n w c delta z u v a W Lu Lv Z1 o. assert (Lc : length c = n) by apply W.
  rewrite (C75_ratio G R0 f pr q n w c delta _ _ a W) by (rewrite seen_length; congruence).
  destruct (seen_sqs z c u v ltac:(congruence) ltac:(congruence)) as (S1 & S2 & S3).
  destruct (seen_sqs z c v u ltac:(congruence) ltac:(congruence)) as (_ & S4 & S5).
  rewrite S1, S2, S3, S4, S5, Z1, Lc. fold o. unfold excess.
  match goal with |- a = ?l <-> a = ?r => replace l with r; [tauto|] end.
  destruct z as [z1 z2]. apply C_ext; cbn; field.
Qed.
Print Assumptions C75_phase.

(** ** what Metropolis-Hastings asks for *)
Lemma cpulled_dist : forall delta w c x y, length c = length x -> length y = length x ->
  nrm2 (vsub y (cpulled delta w c x)) =
  (1 - delta * w) * cdist2 x y + delta * w * cdist2 y c - delta * w * (1 - delta * w) * cdist2 x c.
Proof.
  intros delta w c x; revert c; induction x as [|a x IH]; intros [|b c] [|e y] Lc Ly; cbn in Lc, Ly; try lia.
  - cbn. ring.
  - specialize (IH c y ltac:(lia) ltac:(lia)). unfold nrm2, vsub, cpulled in *.
    cbn [combine map map2 rsum fold_right fst snd cdist2] in *. unfold rsum in IH. rewrite IH, !Cmod_sq.
    destruct a, b, e. cbn. ring.
Qed.

Theorem C75_proper : forall f pr q n w c delta x y, cwell f pr q n w c -> length x = n -> length y = n -> delta <> 0 ->
  proposal_mean f pr q delta x (cpulled delta w c x) /\
  exists lx ly, target_at f pr q x (RtoC lx) /\ target_at f pr q y (RtoC ly) /\
    ly + log_gauss delta (cpulled delta w c y) x - lx - log_gauss delta (cpulled delta w c x) y =
    - (w * (cdist2 y c - cdist2 x c) * (2 + delta * w) / 4).
Proof.
  intros f pr q n w c delta x y (EN & Lc & e & W) Lx Ly D0. split.
  - destruct (W x Lx) as (dx & l2x & px & A1 & A2 & A3 & A4).
    eexists. split.
    + apply (gradlogpi_value f pr q x dx x (map (fun p => RtoC w * (fst p - snd p))%C (combine x c)) None); auto.
      rewrite map_length, combine_length. lia.
    + clear - Lc Lx. assert (L : length c = length x) by congruence. clear Lc Lx n. revert c L.
      unfold cpulled, langevin_drift, vadd, vscal, vsub.
      induction x as [|a x IH]; intros [|b c] L; cbn in L; try lia; [reflexivity|].
      cbn [combine map map2 fst snd]. f_equal; [apply C_ext; cbn; ring|]. apply IH. lia.
  - destruct (W x Lx) as (dx & l2x & px & A1 & A2 & A3 & A4). destruct (W y Ly) as (dy & l2y & py & B1 & B2 & B3 & B4).
    exists (e - w * cdist2 x c), (e - w * cdist2 y c). split; [exists dx, l2x, px; auto|]. split; [exists dy, l2y, py; auto|].
    unfold log_gauss. rewrite !cpulled_dist by congruence. rewrite (cdist2_sym y x). field. exact D0.
Qed.
Print Assumptions C75_proper.

(** ** which proposals are accepted *)
(** whatever uniform number is drawn *)
Definition certain {G} (R0 : rng G) f pr q (a : C) : Prop :=
  forall u, 0 < u < 1 -> o_kltb (mcmc_ops R0 f pr q) (RtoC (ln u)) a = true.

Theorem C75_certain : forall G (R0 : rng G) f pr q a, certain R0 f pr q a <-> 0 <= Re a.
Proof.
  intros G R0 f pr q a. unfold certain. split.
  - intros H. apply Rnot_lt_le. intros N. assert (U : 0 < exp (Re a / 2) < 1).
    { split; [apply exp_pos|]. rewrite <- exp_0. apply exp_increasing. lra. }
    apply H, C13_accept_rule_complex in U. rewrite ln_exp in U. lra.
  - intros H u U. apply C13_accept_rule_complex. left. assert (ln u < 0) by (rewrite <- ln_1; apply ln_increasing; lra). lra.
Qed.
Print Assumptions C75_certain.

Lemma excess_nonneg : forall delta w c x y, 0 < delta -> 0 < w -> delta * w < 2 -> 0 <= excess delta w c x y.
Proof.
  intros delta w c x y Hd Hw Ht. unfold excess. assert (T0 : 0 < delta * w) by (apply Rmult_lt_0_compat; auto).
  assert (D2 : 0 < delta ^ 2) by (apply pow_lt; auto).
  apply Rmult_le_pos; [apply Rmult_le_pos; lra|].
  apply Rplus_le_le_0_compat; [apply Rmult_le_pos; [lra|apply dist2_nonneg]|].
  apply Rmult_le_pos; [apply pow2_ge_0|]. generalize (dist2_nonneg x c) (dist2_nonneg y c). lra.
Qed.

(** in the directions z with z^4 = 1 the rule is that of C74, for z^4 = -1 every
    nearer proposal is accepted with certainty and no other, and for z^4 = i or -i
    the ratio compared with log u is that of the posterior alone *)
Theorem C75_directions : forall G (R0 : rng G) f pr q n w c delta z u v,
  cwell f pr q n w c -> length u = n -> length v = n -> Cmod z = 1 -> 0 < w -> 0 < delta -> delta * w < 2 ->
  let o := repeat 0 n in
  exists a, mh_logalpha (mcmc_ops R0 f pr q) delta (seen z c u) (seen z c v) a /\
    ((z * z * z * z)%C = RtoC 1 -> 1 < excess delta w o u v -> (certain R0 f pr q a <-> dist2 u o <= dist2 v o)) /\
    ((z * z * z * z)%C = RtoC (-1) -> (certain R0 f pr q a <-> dist2 v o <= dist2 u o)) /\
    ((z * z * z * z)%C = Ci \/ (z * z * z * z)%C = (- Ci)%C -> Re a = - (w * (dist2 v o - dist2 u o))).
Proof.
  intros G R0 f pr q n w c delta z u v W Lu Lv Z1 Hw Hd Ht o. eexists. split; [apply (C75_phase G R0 f pr q n w c delta z u v _ W Lu Lv Z1); reflexivity|].
  fold o. assert (E0 := excess_nonneg delta w o u v Hd Hw Ht). set (E := excess delta w o u v) in *.
  set (A := dist2 u o). set (B := dist2 v o). rewrite C75_certain. split; [|split].
  - intros -> H1. replace (Re _) with (w * ((B - A) * (E - 1))) by (cbn; ring).
    split; intros H; [apply Rnot_lt_le; intros N|].
    + assert (P : 0 < (A - B) * (E - 1)) by (apply Rmult_lt_0_compat; lra). assert (0 < w * ((A - B) * (E - 1))) by (apply Rmult_lt_0_compat; auto). lra.
    + apply Rmult_le_pos; [lra|]. apply Rmult_le_pos; lra.
  - intros ->. replace (Re _) with (w * ((A - B) * (E + 1))) by (cbn; ring).
    split; intros H; [apply Rnot_lt_le; intros N|].
    + assert (P : 0 < (B - A) * (E + 1)) by (apply Rmult_lt_0_compat; lra). assert (0 < w * ((B - A) * (E + 1))) by (apply Rmult_lt_0_compat; auto). lra.
    + apply Rmult_le_pos; [lra|]. apply Rmult_le_pos; lra.
  - intros [-> | ->]; cbn; ring.
Qed.
Print Assumptions C75_directions.

(** ** parameters observed directly *)
(** n parameters, each observed with weight w; the data c are complex, and so are
    their errors (with real errors the weights are not real, C73) *)
Definition direct_c (n : nat) (w : R) (c : vec) : forward_op :=
  mkFwd (mkData c true) (scaled_identity n (RtoC w)) "analysis" None (Some id_meas) (Some n).

Theorem C75_wells : forall n w c q, length c = n ->
  cwell (direct_c n w c) free_prior q n w c /\ shapes_fit (direct_c n w c) free_prior n n.
Proof.
  intros n w c q Lc. split.
  - split; [reflexivity|]. split; [exact Lc|]. exists 0. intros x Lx.
    assert (LM : forall a b : vec, length a = n -> length b = n -> length (vsub a b) = n) by (intros; rewrite vsub_length; congruence).
    exists x. eexists _, _. split; [reflexivity|]. split; [reflexivity|]. split.
    + unfold fo_gradg, gradg_analysis, direct_c. cbn [fo_setting String.eqb Ascii.eqb Bool.eqb fo_measurement attr rbind fo_data d_val fo_invcov].
      rewrite np_sub_same by congruence. cbn [rbind]. rewrite np_dot_ok by (cbn; auto). cbn [rbind id_meas ms_adjoint].
      rewrite matvec_scaled_identity by auto. f_equal. clear - Lc Lx. assert (L : length x = length c) by congruence. clear Lc Lx. revert c L.
      unfold vscal, vsub. induction x as [|a x IH]; intros [|b c] L; cbn in L; try lia; [reflexivity|]. cbn. f_equal. apply IH. lia.
    + unfold logpi, direct_c. cbn [fo_data d_val fo_invcov]. rewrite np_sub_same by congruence. cbn [rbind].
      rewrite np_dot_ok by (cbn; auto). cbn [rbind]. rewrite matvec_scaled_identity by auto. unfold np_vdot.
      unfold vscal at 1. rewrite map_length, Nat.eqb_refl. cbn [rbind free_prior pr_prior].
      assert (E : cdot (vsub c x) (vscal (RtoC w) (vsub c x)) = RtoC (w * cdist2 x c)).
      { clear - Lc Lx. assert (L : length x = length c) by congruence. clear Lc Lx. revert c L.
        induction x as [|a x IH]; intros [|b c] L; cbn in L; try lia; [cbn; f_equal; ring|].
        specialize (IH c ltac:(lia)). unfold cdot, vscal, vsub in *. cbn [map map2 csum fold_right cdist2] in *.
        unfold csum in IH. rewrite IH, Cmod_sq. destruct a, b. apply C_ext; cbn; ring. }
      rewrite E. do 3 f_equal. apply C_ext; cbn; ring.
  - unfold shapes_fit. cbn [direct_c fo_nparams fo_data d_val fo_invcov scaled_identity m_rows m_cols].
    split; [reflexivity|]. split; [exact Lc|]. split; [reflexivity|]. split; [reflexivity|].
    split; [intros x Hx; exists x; split; [reflexivity|exact Hx]|].
    split; [|split; [intros x Hx; exists x; split; [reflexivity|exact Hx]|intros; eexists; reflexivity]].
    intros d Ld. unfold fo_gradg, gradg_analysis, direct_c. cbn [fo_setting String.eqb Ascii.eqb Bool.eqb fo_measurement attr rbind fo_data d_val fo_invcov].
    rewrite np_sub_same by congruence. cbn [rbind].
    assert (LS : length (vsub d c) = n) by (rewrite vsub_length; congruence).
    rewrite np_dot_ok by (cbn; auto). cbn [rbind id_meas ms_adjoint]. eexists. split; [reflexivity|]. rewrite matvec_scaled_identity by auto.
    unfold vscal. rewrite map_length. exact LS.
Qed.
Print Assumptions C75_wells.

(** ** refuted: the rule treats all directions alike *)
Definition diagonal : C := (/ sqrt 2, / sqrt 2).
Lemma diagonal_4 : Cmod diagonal = 1 /\ (diagonal * diagonal * diagonal * diagonal)%C = RtoC (-1).
Proof.
  set (h := / sqrt 2). assert (H2 : h * h = / 2).
  { unfold h. rewrite <- Rinv_mult. rewrite sqrt_sqrt by lra. reflexivity. }
  assert (Hp : 0 < h) by (unfold h; apply Rinv_0_lt_compat, sqrt_lt_R0; lra). split.
  - unfold Cmod, diagonal. cbn [fst snd]. fold h. replace (h ^ 2 + h ^ 2) with 1 by (cbn; lra). apply sqrt_1.
  - unfold diagonal. fold h. assert (Q : ((h, h) * (h, h))%C = Ci) by (apply C_ext; cbn; lra).
    rewrite Q. replace (Ci * (h, h) * (h, h))%C with (Ci * ((h, h) * (h, h)))%C by (apply C_ext; cbn; ring). rewrite Q. apply C_ext; cbn; ring.
Qed.

Theorem C75_phase_refuted : exists f pr q, cwell f pr q 1 1 [RtoC 0] /\ shapes_fit f pr 1 1 /\ n_complex q = true /\
  forall delta p, 0 < delta < 2 -> 0 < p < 1 -> exists r,
    cdist2 [RtoC r] [RtoC 0] = cdist2 [(RtoC r * diagonal)%C] [RtoC 0] /\
    forall G (R0 : rng G), exists a b,
      mh_logalpha (mcmc_ops R0 f pr q) delta [(RtoC r * diagonal)%C] [RtoC 0] a /\ certain R0 f pr q a /\
      mh_logalpha (mcmc_ops R0 f pr q) delta [RtoC r] [RtoC 0] (RtoC b) /\ accept_prob b <= p.
Proof.
  set (q := mkNum 1 1 1 true). exists (direct_c 1 1 [RtoC 0]), free_prior, q.
  destruct (C75_wells 1 1 [RtoC 0] q eq_refl) as (W & SF). split; [exact W|]. split; [exact SF|]. split; [reflexivity|].
  intros delta p Hd Hp. destruct (far_start delta 1 0 p ltac:(lra) ltac:(lra) ltac:(lra) Hp) as (r & P & (F1 & F2 & F3)).
  destruct diagonal_4 as (Z1 & Z4). exists r. split.
  - cbn [cdist2]. replace (RtoC r * diagonal - RtoC 0)%C with (RtoC r * diagonal)%C by (destruct diagonal; apply C_ext; cbn; ring).
    rewrite Cmod_mult, Z1. replace (RtoC r - RtoC 0)%C with (RtoC r) by (apply C_ext; cbn; ring). ring.
  - intros G R0.
    assert (S1 : forall z, seen z [RtoC 0] [r] = [(RtoC r * z)%C]) by (intros [z1 z2]; unfold seen; cbn; f_equal; apply C_ext; cbn; ring).
    assert (S2 : forall z, seen z [RtoC 0] [0] = [RtoC 0]) by (intros [z1 z2]; unfold seen; cbn; f_equal; apply C_ext; cbn; ring).
    destruct (C75_directions G R0 (direct_c 1 1 [RtoC 0]) free_prior q 1 1 [RtoC 0] delta diagonal [r] [0] W eq_refl eq_refl Z1
      ltac:(lra) ltac:(lra) ltac:(lra)) as (a & A1 & _ & A2 & _). rewrite S1, S2 in A1.
    exists a, (1 * (dist2 [0] [0] - dist2 [r] [0]) * (excess delta 1 [0] [r] [0] - 1)). split; [exact A1|]. split; [|split].
    + apply (A2 Z4). cbn [repeat]. replace (dist2 [0] [0]) with 0 by (cbn; ring). apply dist2_nonneg.
    + assert (K := proj2 (C75_phase G R0 (direct_c 1 1 [RtoC 0]) free_prior q 1 1 [RtoC 0] delta (RtoC 1) [r] [0] _ W eq_refl eq_refl Cmod_1) eq_refl).
      rewrite S1, S2 in K. replace (RtoC r * RtoC 1)%C with (RtoC r) in K by (apply C_ext; cbn; ring).
      cbn [repeat] in K. match type of K with mh_logalpha _ _ _ _ ?v => match goal with |- mh_logalpha _ _ _ _ ?t => replace t with v; [exact K|] end end.
      generalize (excess delta 1 [0] [r] [0]) (dist2 [0] [0] - dist2 [r] [0]). intros E D. apply C_ext; cbn; ring.
    + unfold accept_prob. apply Rle_trans with (1 := Rmin_r _ _). rewrite <- (exp_ln p) by lra.
      assert (Q : 1 * (dist2 [0] [0] - dist2 [r] [0]) * (excess delta 1 [0] [r] [0] - 1) <= ln p); [|destruct Q as [Q | Q]; [left; apply exp_increasing; exact Q|rewrite Q; lra]].
      replace (dist2 [0] [0]) with 0 by (cbn; ring).
      set (X := dist2 [r] [0]) in *. assert (X0 : 0 <= X) by apply dist2_nonneg.
      assert (EX : 2 <= excess delta 1 [0] [r] [0]).
      { unfold excess. fold X. assert (D0 : dist2 [0] [0] = 0) by (cbn; ring). rewrite D0.
        assert (D2 : 0 < delta ^ 2) by (apply pow_lt; lra). rewrite Rmult_1_r in *.
        assert (P1 : 0 < delta ^ 2 * (1 - delta / 4)) by (apply Rmult_lt_0_compat; lra).
        assert (N1 : 0 <= 2 * (1 - delta / 2) * X) by (apply Rmult_le_pos; lra).
        assert (I : delta ^ 2 / 2 * (1 - delta / 4) * ((delta / 2) ^ 2 * X) <=
                    delta ^ 2 / 2 * (1 - delta / 4) * (2 * (1 - delta / 2) * X + (delta / 2) ^ 2 * (X + 0))).
        { apply Rmult_le_compat_l; lra. } nra. }
      assert (A3 : approach delta 1 <= 1) by (unfold approach; assert (0 <= (delta - 1) ^ 2) by apply pow2_ge_0; nra).
      assert (A4 : 1 * approach delta 1 / 4 * X <= X) by nra. nra.
Qed.
Print Assumptions C75_phase_refuted.

(** weight 1, data 0, step size 1, samples on the imaginary axis and off it: from 8i the
    proposal 4i has log ratio -600 as in C74_case, and from (1+i) 8 the proposal (1+i) 4
    has 3/8 * 96 * 72 + 96 = 2688 *)
Example C75_case : forall G (R0 : rng G), let q := mkNum 1 1 1 true in
  mh_logalpha (mcmc_ops R0 (direct_c 1 1 [RtoC 0]) free_prior q) 1 [(0, 8)] [(0, 4)] (RtoC (- 600)) /\
  mh_logalpha (mcmc_ops R0 (direct_c 1 1 [RtoC 0]) free_prior q) 1 [(8, 8)] [(4, 4)] (RtoC 2688).
Proof.
  intros G R0 q. destruct (C75_wells 1 1 [RtoC 0] q eq_refl) as (W & _).
  split; [apply (C75_ratio G R0 (direct_c 1 1 [RtoC 0]) free_prior q 1 1 [RtoC 0] 1 [(0, 8)] [(0, 4)] _ W eq_refl eq_refl)|
          apply (C75_ratio G R0 (direct_c 1 1 [RtoC 0]) free_prior q 1 1 [RtoC 0] 1 [(8, 8)] [(4, 4)] _ W eq_refl eq_refl)];
    cbn [sqs cdist2]; rewrite !Cmod_sq; apply C_ext; cbn; field.
Qed.
