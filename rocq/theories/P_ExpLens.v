(** C50: data and operator of the weak lensing experiment
    (experiments/weaklensing/main.py). *)
From Coq Require Import List ZArith Lia Bool Reals Lra Psatz String.
From Coquelicot Require Import Coquelicot.
From Verif Require Import PyBase PyBaseFacts CVec RSort Utils UtilsSpec UtilsProof Measure MeasSpec MeasProof P_Meas P_Utils
  Prior Forward FwdProof P_Forward Transforms Mcmc McmcSpec ExpData ExpSpec ExpProof.
Import ListNotations.
Open Scope R_scope.
Notation length := List.length.

(** pixel p (row-major) is more than 10 degrees away from the equator and, at
    the position handed to astropy, from the galactic plane *)
Definition in_survey (L : nat) (gal_b : R -> R -> R) (p : nat) : Prop :=
  let theta := degrees (nth (p / (2 * L - 1)) (mw_thetas L) 0) in
  let phi := degrees (nth (p mod (2 * L - 1)) (mw_phis L) 0) in
  10 <= Rabs (90 - theta) /\ 10 <= Rabs (gal_b (phi - 180) (theta - 90)).
(** the pixels [ps] of the survey, in increasing order *)
Definition survey (L : nat) (gal_b : R -> R -> R) (ps : list nat) : Prop :=
  Sorted.StronglySorted lt ps /\ forall p, In p ps <-> (p < L * (2 * L - 1))%nat /\ in_survey L gal_b p.
(** 1 / error of a pixel with 30 galaxies and intrinsic ellipticity 0.37 *)
Definition gal_weight : R := sqrt (60 / (37 / 100) ^ 2).
(** the shear of a convergence map *)
Definition shear_of (S : ssht) (L : nat) (kappa shear : vec) : Prop :=
  length kappa = (L * (2 * L - 1))%nat /\ length shear = (L * (2 * L - 1))%nat /\
  exists h klm glm, WLH_init (Z.of_nat L) = Ok h /\ ss_forward S L 0 kappa = Ok klm /\ WLH_forward h klm = Ok glm /\
    ss_inverse S L 2 glm = Ok shear.
(** the true convergence: band limited, smoothed by 50 arcmin, in MW sampling *)
Definition truth_map (hp : healpy) (S : ssht) (infile : string) (L : nat) (kappa : vec) : Prop :=
  exists k a k2 k3 a2 lm,
    hp_read_map hp infile = Ok k /\ hp_map2alm hp k (Z.of_nat L - 1) = Ok a /\
    hp_alm2map hp a (3 * Z.of_nat L - 4) = Ok k2 /\ hp_smoothing hp k2 (5 / 6 * PI / 180) = Ok k3 /\
    hp_map2alm hp k3 (Z.of_nat L - 1) = Ok a2 /\ hp_hp2lm hp a2 L = Ok lm /\ ss_inverse S L 0 lm = Ok kappa.

Lemma gal_weight_pos : 0 < gal_weight.
Proof. apply sqrt_lt_R0. unfold Rdiv. apply Rmult_lt_0_compat; [lra|]. apply Rinv_0_lt_compat. simpl; lra. Qed.
Lemma gal_weight_sq : gal_weight ^ 2 = 600000 / 1369.
Proof. unfold gal_weight. rewrite <- Rsqr_pow2, Rsqr_sqrt; [field|]. apply Rle_trans with (600000 / 1369); [lra|]. right. field. Qed.

Lemma seq_sorted : forall n a, Sorted.StronglySorted lt (seq a n).
Proof.
  induction n as [|n IH]; intros a; simpl; constructor; [apply IH|]. apply List.Forall_forall. intros x Hx. apply in_seq in Hx. lia.
Qed.
Lemma filter_sorted : forall (p : nat -> bool) l, Sorted.StronglySorted lt l -> Sorted.StronglySorted lt (filter p l).
Proof.
  induction l as [|a l IH]; intros H; simpl; [constructor|]. inversion H as [|x y Hl Ha]; subst. destruct (p a); [|auto].
  constructor; [auto|]. apply List.Forall_forall. intros x Hx. apply filter_In in Hx. rewrite List.Forall_forall in Ha. apply Ha. tauto.
Qed.

(** a sorted list is determined by its elements *)
Lemma sorted_ext : forall l1 l2, Sorted.StronglySorted lt l1 -> Sorted.StronglySorted lt l2 ->
  (forall p : nat, In p l1 <-> In p l2) -> l1 = l2.
Proof.
  induction l1 as [|a l1 IH]; intros [|b l2] S1 S2 H; auto.
  - exfalso. apply (H b). left; auto.
  - exfalso. apply (H a). left; auto.
  - inversion S1 as [|x y Sl1 Fa]; subst. inversion S2 as [|x y Sl2 Fb]; subst. rewrite List.Forall_forall in Fa, Fb.
    assert (a = b).
    { destruct (proj1 (H a) (or_introl eq_refl)) as [E|I]; [auto|]. destruct (proj2 (H b) (or_introl eq_refl)) as [E|J]; [auto|].
      apply Fb in I. apply Fa in J. lia. }
    subst b. f_equal. apply IH; auto. intros p. split; intros I.
    + destruct (proj1 (H p) (or_intror I)) as [<-|J]; auto. apply Fa in I. lia.
    + destruct (proj2 (H p) (or_intror I)) as [<-|J]; auto. apply Fb in I. lia.
Qed.
Theorem C50_survey_unique : forall L gal_b ps qs, survey L gal_b ps -> survey L gal_b qs -> ps = qs.
Proof. intros L g ps qs (S1 & H1) (S2 & H2). apply sorted_ext; auto. intros p. rewrite H1, H2. tauto. Qed.
Print Assumptions C50_survey_unique.

Lemma mask_table : forall L gal_b size, table (build_mask L (mw_thetas L) (mw_phis L) gal_b size) L (2 * L - 1).
Proof. intros. destruct (C26_shape L gal_b size) as (A & B). split; auto. Qed.

(** the measurement: every pixel outside the two strips, weighted with 1/error *)
Theorem C50_measurement : forall L gal_b, (1 <= L)%nat -> exists w ps,
  lensing_measurement L (mw_thetas L) (mw_phis L) gal_b = Ok w /\ survey L gal_b ps /\
  set_positions (b_bits (w_mask w)) = ps /\ map_mask L (w_mask w) /\
  w_L w = L /\ WLH_init (Z.of_nat L) = Ok (w_base w) /\ w_invcov w = map (fun _ => gal_weight) ps.
Proof.
  intros L gal_b HL. unfold lensing_measurement. set (m := build_mask L (mw_thetas L) (mw_phis L) gal_b 10).
  assert (T : table m L (2 * L - 1)) by apply mask_table. assert (LC := length_concat_table _ _ _ T).
  assert (M : map_mask L (mask_bits L m)) by (split; [reflexivity|]; unfold mask_bits; cbn [b_bits]; rewrite map_length; auto).
  destruct (C32_construction L (Some (mask_bits L m)) (Some ([L; (2 * L - 1)%nat], map (fun _ => 30) (List.concat m))) HL M) as (w & E & A1 & A2 & A3 & A4).
  { intros s g E. injection E as <- <-. split; [reflexivity|]. rewrite map_length; auto. }
  cbn [the_mask snd] in *. exists w, (set_positions (b_bits (mask_bits L m))). split; [exact E|]. rewrite A2. split.
  { split; [apply filter_sorted, seq_sorted|]. intros p. unfold set_positions. rewrite filter_In, in_seq. destruct M as (_ & LB). rewrite LB.
    split; (intros (H1 & H2); split; [lia|]); revert H2.
    all: unfold mask_bits; cbn [b_bits]; rewrite (nth_map_in _ _ _ _ 0) by lia.
    all: assert (Hc : (0 < 2 * L - 1)%nat) by lia.
    all: assert (Hi : (p / (2 * L - 1) < L)%nat) by (apply Nat.div_lt_upper_bound; lia).
    all: assert (Hj : (p mod (2 * L - 1) < 2 * L - 1)%nat) by (apply Nat.mod_upper_bound; lia).
    all: assert (Ep : (p = p / (2 * L - 1) * (2 * L - 1) + p mod (2 * L - 1))%nat) by (rewrite Nat.mul_comm; apply Nat.div_mod; lia).
    all: assert (EN : nth p (List.concat m) 0 = cell m (p / (2 * L - 1)) (p mod (2 * L - 1)))
           by (rewrite <- (nth_concat_table m L (2 * L - 1)) by auto; rewrite <- Ep; reflexivity).
    all: rewrite EN; clear EN Ep.
    all: destruct (build_mask_entry L gal_b 10 (p / (2 * L - 1)) (p mod (2 * L - 1)) Hi Hj) as (V & Z); fold m in V, Z; unfold cell.
    all: unfold in_survey.
    - destruct (Req_EM_T _ 0) as [|N]; [discriminate|]. intros _. rewrite Z in N. split.
      + destruct (Rle_lt_dec 10 (Rabs (90 - degrees (nth (p / (2 * L - 1)) (mw_thetas L) 0)))); auto. exfalso; apply N; auto.
      + destruct (Rle_lt_dec 10 (Rabs (gal_b (degrees (nth (p mod (2 * L - 1)) (mw_phis L) 0) - 180) (degrees (nth (p / (2 * L - 1)) (mw_thetas L) 0) - 90)))); auto.
        exfalso; apply N; auto.
    - intros (B1 & B2). destruct (Req_EM_T _ 0) as [N|]; [|reflexivity]. rewrite Z in N. destruct N; lra. }
  split; [reflexivity|]. split; [exact M|]. split; [exact A1|]. split; [exact A3|].
  rewrite A4. apply map_ext_in. intros p Hp. unfold set_positions in Hp. apply filter_In in Hp. destruct Hp as (Hp & _). apply in_seq in Hp.
  destruct M as (_ & LB). rewrite (nth_map_in _ _ _ _ 0) by lia. unfold gal_weight. replace (2 * 30) with 60 by lra. reflexivity.
Qed.
Print Assumptions C50_measurement.

Lemma lens_forward : forall S L gal_b w ps kappa shear, (1 <= L)%nat -> survey L gal_b ps ->
  lensing_measurement L (mw_thetas L) (mw_phis L) gal_b = Ok w -> shear_of S L kappa shear ->
  WL_forward S w kappa = Ok (map (fun p => RtoC gal_weight * nth p shear (RtoC 0))%C ps).
Proof.
  intros S L gal_b w ps kappa shear HL HS E (LK & LS & h & klm & glm & Eh & E1 & E2 & E3).
  destruct (C50_measurement L gal_b HL) as (w' & ps' & E' & S' & EP & M & EL & EB & EI). rewrite E in E'. apply Ok_inj in E'. subst w'.
  assert (EQ : ps' = ps) by (eapply C50_survey_unique; eauto). rewrite EQ in *. clear EQ ps'.
  assert (h = w_base w) by congruence. subst h.
  unfold WL_forward. rewrite EL, LK, Nat.eqb_refl, E1. cbn [rbind]. rewrite E2. cbn [rbind]. rewrite E3. cbn [rbind].
  rewrite (C32_mask_forward C (RtoC 0) L _ shear M LS), EP. cbn [rbind]. unfold cov_weight. rewrite EI. unfold np_mul.
  rewrite np_bin_eq by (rewrite !map_length; reflexivity). f_equal. rewrite map_map. clear.
  induction ps as [|a l IH]; [reflexivity|]. cbn [map map2]. f_equal; [apply Cmult_comm|exact IH].
Qed.

(** the operator: data, inverse covariance, number of parameters *)
Theorem C50_operator : forall hp S sl junk inv infile L gal_b setting kappa shear ps t,
  (1 <= L)%nat -> survey L gal_b ps -> truth_map hp S infile L kappa -> shear_of S L kappa shear ->
  SWT_init sl junk L 2 2 1 0 false = Ok t -> known_setting setting = true ->
  exists f, lensing_operator hp S sl junk inv infile L (mw_thetas L) (mw_phis L) gal_b setting = Ok f /\
    fo_data f = mkData (map (fun p => RtoC gal_weight * nth p shear (RtoC 0))%C ps) true /\
    is_diagonal (fo_invcov f) (map (fun _ => RtoC (gal_weight ^ 2) * ((RtoC 1 - Ci) / RtoC (sqrt 2)))%C ps) /\
    fo_setting f = setting /\ fo_transform f = Some (swt_transform t) /\ fo_nparams f = Some (sw_ncoefs t) /\
    exists ms, fo_measurement f = Some ms /\
      (forall k s, shear_of S L k s -> ms_forward ms k = Ok (map (fun p => RtoC gal_weight * nth p s (RtoC 0))%C ps)) /\
      (forall k, length k <> (L * (2 * L - 1))%nat -> ms_forward ms k = Raise ValueError).
Proof.
  intros hp S sl junk inv infile L gal_b setting kappa shear ps t HL HS HT HK ET K.
  destruct (C50_measurement L gal_b HL) as (w & ps' & E & S' & EP & M & EL & EB & EI).
  assert (EQ : ps' = ps) by (eapply C50_survey_unique; eauto). rewrite EQ in *. clear EQ ps'.
  unfold lensing_operator. rewrite E. cbn [rbind]. destruct HT as (k & a & k2 & k3 & a2 & lm & T1 & T2 & T3 & T4 & T5 & T6 & T7).
  assert (EG : load_gammas hp S infile L w = Ok (map (fun p => RtoC gal_weight * nth p shear (RtoC 0))%C ps)).
  { unfold load_gammas. rewrite T1. cbn [rbind]. rewrite T2. cbn [rbind].
    replace (3 * (Z.of_nat L - 1) - 1)%Z with (3 * Z.of_nat L - 4)%Z by ring. rewrite T3. cbn [rbind].
    replace (deg2rad (50 / 60)) with (5 / 6 * PI / 180) by (unfold deg2rad; field). rewrite T4. cbn [rbind]. rewrite T5. cbn [rbind].
    rewrite T6. cbn [rbind]. rewrite T7. cbn [rbind]. exact (lens_forward S L gal_b w ps kappa shear HL HS E HK). }
  rewrite EG. cbn [rbind]. rewrite ET. cbn [rbind]. rewrite EI.
  set (d := mkData (map (fun p => RtoC gal_weight * nth p shear (RtoC 0))%C ps) true).
  rewrite map_map. assert (G := gal_weight_pos).
  assert (RE : real_errors (SVec (map (fun _ => RtoC (1 / gal_weight)) ps) false) (length (d_val d)) (map (fun _ => 1 / gal_weight) ps)).
  { split; [unfold d; cbn [d_val]; rewrite !map_length; reflexivity|]. split.
    - intros x Hx. apply in_map_iff in Hx. destruct Hx as (q & <- & _). apply Rgt_not_eq. unfold Rdiv. rewrite Rmult_1_l. apply Rinv_0_lt_compat; auto.
    - right. rewrite map_map. reflexivity. }
  destruct (C17_matrix_complex_data inv d _ _ setting (Some (swt_transform t)) (Some (mkMeas (WL_forward S w) (WL_adjoint S w))) (Some (sw_ncoefs t)) K eq_refl RE) as (f & Ef & DF).
  exists f. split; [exact Ef|]. destruct (Forward_init_ok _ _ _ _ _ _ _ _ Ef) as (_ & _ & Q).
  split; [rewrite Q; reflexivity|]. split.
  { rewrite map_map in DF. replace (map (fun _ : nat => (RtoC (gal_weight ^ 2) * ((RtoC 1 - Ci) / RtoC (sqrt 2)))%C) ps)
      with (map (fun _ : nat => (RtoC (1 / (1 / gal_weight) ^ 2) * ((RtoC 1 - Ci) / RtoC (sqrt 2)))%C) ps); [exact DF|].
    apply map_ext. intros _. do 2 f_equal. field. lra. }
  split; [rewrite Q; reflexivity|]. split; [rewrite Q; reflexivity|]. split; [rewrite Q; reflexivity|].
  eexists. split; [rewrite Q; reflexivity|]. cbn [ms_forward]. split.
  - intros k' s' Hk. exact (lens_forward S L gal_b w ps k' s' HL HS E Hk).
  - intros k' Hk. unfold WL_forward. rewrite EL, (proj2 (Nat.eqb_neq _ _) Hk). reflexivity.
Qed.
Print Assumptions C50_operator.

(** the image a parameter vector stands for *)
Definition image_of (t : swt) (setting : string) (X kappa : vec) : Prop :=
  (setting = "analysis"%string /\ X = kappa) \/ (setting <> "analysis"%string /\ SWT_inverse t X = Ok kappa).

Lemma lens_fo_forward : forall f t S L setting ps ms X k s,
  fo_setting f = setting -> fo_transform f = Some (swt_transform t) -> fo_measurement f = Some ms ->
  (forall k s, shear_of S L k s -> ms_forward ms k = Ok (map (fun p => RtoC gal_weight * nth p s (RtoC 0))%C ps)) ->
  image_of t setting X k -> shear_of S L k s ->
  fo_forward f X = Ok (map (fun p => RtoC gal_weight * nth p s (RtoC 0))%C ps).
Proof.
  intros f t S L setting ps ms X k s FS FT FM HM HI HK. unfold fo_forward. rewrite FS, FM, FT. cbn [attr rbind].
  destruct HI as [(-> & ->)|(N & EI)]; [rewrite String.eqb_refl; apply HM; auto|].
  rewrite (proj2 (String.eqb_neq _ _) N). unfold swt_transform. cbn [t_inverse]. rewrite EI. cbn [rbind]. apply HM. auto.
Qed.

(** parameters whose image is the truth are predicted without any misfit *)
Theorem C50_truth_fits : forall hp S sl junk inv infile L gal_b setting kappa shear ps t pr q X f,
  (1 <= L)%nat -> survey L gal_b ps -> truth_map hp S infile L kappa -> shear_of S L kappa shear ->
  SWT_init sl junk L 2 2 1 0 false = Ok t ->
  lensing_operator hp S sl junk inv infile L (mw_thetas L) (mw_phis L) gal_b setting = Ok f ->
  image_of t setting X kappa ->
  fo_forward f X = Ok (d_val (fo_data f)) /\
  forall lp l2 p, logpi f pr q X (d_val (fo_data f)) = Ok (lp, l2, p) -> l2 = RtoC 0.
Proof.
  intros hp S sl junk inv infile L gal_b setting kappa shear ps t pr q X f HL HS HT HK ET E HI.
  assert (K : known_setting setting = true).
  { destruct (known_setting setting) eqn:K; auto. exfalso. unfold lensing_operator in E.
    destruct (lensing_measurement _ _ _ _); cbn [rbind] in E; [|discriminate]. destruct (load_gammas _ _ _ _ _); cbn [rbind] in E; [|discriminate].
    rewrite ET in E. cbn [rbind] in E. destruct (Forward_init_ok _ _ _ _ _ _ _ _ E) as (_ & K' & _). congruence. }
  destruct (C50_operator hp S sl junk inv infile L gal_b setting kappa shear ps t HL HS HT HK ET K)
    as (f' & E' & FD & FI & FS & FT & FN & ms & FM & HM & _). rewrite E in E'. apply Ok_inj in E'. subst f'.
  split; [rewrite FD; cbn [d_val]; exact (lens_fo_forward f t S L setting ps ms X kappa shear FS FT FM HM HI HK)|].
  intros lp l2 p EL. set (y := d_val (fo_data f)) in *.
  assert (Ly : length y = length ps) by (unfold y; rewrite FD; cbn [d_val]; apply map_length).
  assert (HR := proj1 FI). assert (HC := proj1 (proj2 FI)). rewrite map_length in HR, HC.
  rewrite (logpi_value f pr q X y (length ps)) in EL by (auto). destruct (pr_prior pr X); cbn [rbind] in EL; [|discriminate]. cbv zeta in EL.
  injection EL as _ <- _. fold y. replace (vsub y y) with (map (fun _ => RtoC 0) y).
  2:{ clear. induction y as [|a y IH]; [reflexivity|]. unfold vsub in *. cbn [map map2]. rewrite <- IH. f_equal. ring. }
  unfold quadform. rewrite map_length. apply csum_map_0. intros i Hi. apply in_seq in Hi.
  apply csum_map_0. intros j Hj. apply in_seq in Hj.
  rewrite (nth_map_in _ _ _ _ (RtoC 0)) by lia. rewrite (nth_map_in _ _ _ _ (RtoC 0)) by lia. ring.
Qed.
Print Assumptions C50_truth_fits.

(** the misfit: the data are already divided by the error, and the covariance
    divides once more *)
Theorem C50_misfit : forall hp S sl junk inv infile L gal_b setting kappa shear ps t pr q X k s f preds lp l2 p,
  (1 <= L)%nat -> survey L gal_b ps -> truth_map hp S infile L kappa -> shear_of S L kappa shear ->
  SWT_init sl junk L 2 2 1 0 false = Ok t -> known_setting setting = true ->
  lensing_operator hp S sl junk inv infile L (mw_thetas L) (mw_phis L) gal_b setting = Ok f ->
  image_of t setting X k -> shear_of S L k s -> fo_forward f X = Ok preds -> logpi f pr q X preds = Ok (lp, l2, p) ->
  l2 = (RtoC (gal_weight ^ 4 * rsum (map (fun p => Cmod (nth p shear (RtoC 0) - nth p s (RtoC 0))%C ^ 2) ps)) *
        ((RtoC 1 - Ci) / RtoC (sqrt 2)))%C.
Proof.
  intros hp S sl junk inv infile L gal_b setting kappa shear ps t pr q X k s f preds lp l2 p HL HS HT HK ET K E HI HK2 EP EL.
  destruct (C50_operator hp S sl junk inv infile L gal_b setting kappa shear ps t HL HS HT HK ET K)
    as (f' & E' & FD & FI & FS & FT & FN & ms & FM & HM & _). rewrite E in E'. apply Ok_inj in E'. subst f'.
  rewrite (lens_fo_forward f t S L setting ps ms X k s FS FT FM HM HI HK2) in EP. apply Ok_inj in EP. subst preds.
  assert (HR := proj1 FI). assert (HC := proj1 (proj2 FI)). rewrite map_length in HR, HC.
  rewrite (logpi_value f pr q X _ (length ps)) in EL by (rewrite ?FD; cbn [d_val]; rewrite ?map_length; auto).
  destruct (pr_prior pr X); cbn [rbind] in EL; [|discriminate]. cbv zeta in EL. injection EL as _ <- _.
  rewrite FD. cbn [d_val].
  replace (vsub (map (fun p0 => (RtoC gal_weight * nth p0 shear (RtoC 0))%C) ps) (map (fun p0 => (RtoC gal_weight * nth p0 s (RtoC 0))%C) ps))
    with (map (fun p0 => (RtoC gal_weight * (nth p0 shear (RtoC 0) - nth p0 s (RtoC 0)))%C) ps).
  2:{ clear. unfold vsub. induction ps as [|a l IH]; [reflexivity|]. cbn [map map2]. rewrite <- IH. f_equal. ring. }
  rewrite (quadform_diagonal _ _ _ FI) by (rewrite !map_length; reflexivity).
  clear. induction ps as [|a l IH]; [cbn; rewrite Rmult_0_r; cplx|].
  cbn [map map2 csum fold_right rsum]. unfold csum, rsum in IH. rewrite IH.
  rewrite Cmod_mult, Cmod_R, Rabs_right by (left; apply gal_weight_pos).
  replace (gal_weight ^ 4 * (Cmod (nth a shear (RtoC 0) - nth a s (RtoC 0))%C ^ 2 + fold_right Rplus 0 (map (fun p => Cmod (nth p shear (RtoC 0) - nth p s (RtoC 0))%C ^ 2) l)))
    with (gal_weight ^ 2 * (gal_weight * Cmod (nth a shear (RtoC 0) - nth a s (RtoC 0))%C) ^ 2 +
          gal_weight ^ 4 * fold_right Rplus 0 (map (fun p => Cmod (nth p shear (RtoC 0) - nth p s (RtoC 0))%C ^ 2) l)) by ring.
  rewrite RtoC_plus, (RtoC_mult (gal_weight ^ 2)). ring.
Qed.
Print Assumptions C50_misfit.

(** So the misfit is gal_weight^2, about 438, times the chi^2 of the shear with
    error 1/gal_weight: the experiment's posterior is not the one of the noise
    model. *)
Definition shear_chi2 (ps : list nat) (shear s : vec) : R :=
  rsum (map (fun p => Cmod (nth p shear (RtoC 0) - nth p s (RtoC 0))%C ^ 2 / (1 / gal_weight) ^ 2) ps).
Theorem C50_double_weighting : forall hp S sl junk inv infile L gal_b setting kappa shear ps t pr q X k s f preds lp l2 p,
  (1 <= L)%nat -> survey L gal_b ps -> truth_map hp S infile L kappa -> shear_of S L kappa shear ->
  SWT_init sl junk L 2 2 1 0 false = Ok t -> known_setting setting = true ->
  lensing_operator hp S sl junk inv infile L (mw_thetas L) (mw_phis L) gal_b setting = Ok f ->
  image_of t setting X k -> shear_of S L k s -> fo_forward f X = Ok preds -> logpi f pr q X preds = Ok (lp, l2, p) ->
  Cmod l2 = 600000 / 1369 * shear_chi2 ps shear s.
Proof.
  intros hp S sl junk inv infile L gal_b setting kappa shear ps t pr q X k s f preds lp l2 p HL HS HT HK ET K E HI HK2 EP EL.
  rewrite (C50_misfit hp S sl junk inv infile L gal_b setting kappa shear ps t pr q X k s f preds lp l2 p HL HS HT HK ET K E HI HK2 EP EL).
  assert (G := gal_weight_pos). rewrite Cmod_mult, Cmod_R.
  assert (U : Cmod ((RtoC 1 - Ci) / RtoC (sqrt 2))%C = 1).
  { rewrite Cmod_div by (intros X0; apply RtoC_inj in X0; generalize sqrt2_pos; lra).
    rewrite Cmod_R, Rabs_right by (left; apply sqrt2_pos).
    replace (Cmod (RtoC 1 - Ci)%C) with (sqrt 2); [field; generalize sqrt2_pos; lra|]. unfold Cmod. f_equal. simpl. ring. }
  rewrite U, Rmult_1_r.
  replace (gal_weight ^ 4 * rsum (map (fun p => Cmod (nth p shear (RtoC 0) - nth p s (RtoC 0))%C ^ 2) ps))
    with (600000 / 1369 * shear_chi2 ps shear s).
  2:{ rewrite <- gal_weight_sq. unfold shear_chi2. clear - G. induction ps as [|a l IH]; [simpl; ring|].
      cbn [map rsum fold_right]. unfold rsum in IH. rewrite !Rmult_plus_distr_l, <- IH. f_equal. field. lra. }
  apply Rabs_right. apply Rle_ge. apply Rmult_le_pos; [lra|]. unfold shear_chi2. clear - G. induction ps as [|a l IH]; [simpl; lra|].
  cbn [map rsum fold_right]. unfold rsum in IH. apply Rplus_le_le_0_compat; auto.
  apply Rmult_le_pos; [apply pow2_ge_0|]. left. apply Rinv_0_lt_compat. apply pow_lt. unfold Rdiv. rewrite Rmult_1_l. apply Rinv_0_lt_compat; auto.
Qed.
Print Assumptions C50_double_weighting.

(** the analysis setting: nparams is the number of wavelet coefficients, and no
    vector of that size can be predicted unless it happens to be the image size *)
Theorem C50_analysis_unusable : forall hp S sl junk inv infile L gal_b kappa shear ps t,
  (1 <= L)%nat -> survey L gal_b ps -> truth_map hp S infile L kappa -> shear_of S L kappa shear ->
  SWT_init sl junk L 2 2 1 0 false = Ok t -> sw_ncoefs t <> (L * (2 * L - 1))%nat ->
  exists f np, lensing_operator hp S sl junk inv infile L (mw_thetas L) (mw_phis L) gal_b "analysis" = Ok f /\
    fo_nparams f = Some np /\ forall X, length X = np -> fo_forward f X = Raise ValueError.
Proof.
  intros hp S sl junk inv infile L gal_b kappa shear ps t HL HS HT HK ET N.
  destruct (C50_operator hp S sl junk inv infile L gal_b "analysis" kappa shear ps t HL HS HT HK ET eq_refl)
    as (f & E & _ & _ & FS & _ & FN & ms & FM & _ & HM).
  exists f, (sw_ncoefs t). split; [exact E|]. split; [exact FN|]. intros X LX. unfold fo_forward. rewrite FS, FM. cbn [attr rbind].
  rewrite String.eqb_refl. apply HM. rewrite LX. exact N.
Qed.
Print Assumptions C50_analysis_unusable.

(** a concrete experiment at L = 3 without masked pixels *)
Definition ex_ssht : ssht := mkSsht (fun n _ k => Ok (firstn (n * n) k)) (fun n _ g => Ok (g ++ vzero (n * (2 * n - 1) - length g)))
                                    (fun _ _ x => Ok x) (fun _ _ x => Ok x).
Definition ex_healpy : healpy := mkHp (fun _ => Ok []) (fun k _ => Ok k) (fun a _ => Ok a) (fun k _ => Ok k) (fun _ n => Ok (vzero (n * n))).
Definition ex_s2let : s2let := mkS2let (fun _ _ _ => 2%Z) (fun _ x => Ok (x, x)) (fun _ x _ => Ok x) (fun _ x _ => Ok x) (fun _ x => Ok (x, x))
                                       (fun _ x => Ok (x, x)) (fun _ x _ => Ok x) (fun _ x _ => Ok x) (fun _ x => Ok (x, x)).
Lemma ex_truth : truth_map ex_healpy ex_ssht "k.fits" 3 (vzero 15).
Proof. do 6 eexists. repeat (split; [reflexivity|]). reflexivity. Qed.
Lemma ex_shear : forall k, length k = 15%nat -> exists s, shear_of ex_ssht 3 k s /\
  nth 4 s (RtoC 0) = (RtoC (shear_factor 2) * nth 4 k (RtoC 0))%C.
Proof.
  intros k Lk. destruct (C31_construction 3) as (_ & H0). destruct (H0 ltac:(lia)) as (h & Eh & _).
  assert (Lf : length (firstn 9 k) = 9%nat) by (rewrite firstn_length; lia).
  destruct (C31_forward 3 h (firstn 9 k) Eh Lf) as (y & Ey & Ly & _ & _ & HF). rewrite Lf in Ly.
  exists (y ++ vzero 6). split.
  - split; [exact Lk|]. split; [rewrite app_length, Ly; reflexivity|]. exists h, (firstn 9 k), y.
    split; [exact Eh|]. split; [reflexivity|]. split; [exact Ey|]. cbn [ex_ssht ss_inverse]. rewrite Ly. reflexivity.
  - rewrite app_nth1 by lia. specialize (HF 2%Z (-2)%Z ltac:(lia) ltac:(lia)). change (lm_index 2 (-2)) with 4%nat in HF. rewrite HF.
    f_equal. destruct k as [|? [|? [|? [|? [|? ?]]]]]; try discriminate. reflexivity.
Qed.

(** the error is real: the misfit of an image that differs from the truth in one
    harmonic coefficient is not its chi^2 *)
Theorem C50_misfit_refuted : exists hp S sl junk inv infile L gal_b kappa shear ps t pr q X k s f preds lp l2 p,
  (1 <= L)%nat /\ survey L gal_b ps /\ truth_map hp S infile L kappa /\ shear_of S L kappa shear /\
  SWT_init sl junk L 2 2 1 0 false = Ok t /\
  lensing_operator hp S sl junk inv infile L (mw_thetas L) (mw_phis L) gal_b "synthesis" = Ok f /\
  image_of t "synthesis" X k /\ shear_of S L k s /\ fo_forward f X = Ok preds /\ logpi f pr q X preds = Ok (lp, l2, p) /\
  Cmod l2 <> shear_chi2 ps shear s.
Proof.
  set (k := vzero 4 ++ [RtoC 1] ++ vzero 10). set (gb := fun _ _ : R => 90).
  destruct (C50_measurement 3 gb ltac:(lia)) as (w & ps & _ & HS & _).
  destruct (ex_shear (vzero 15) (repeat_length _ 15)) as (shear & HK & N4). destruct (ex_shear k eq_refl) as (s & HK2 & M4).
  assert (ET : SWT_init ex_s2let (fun _ => RtoC 0) 3 2 2 1 0 false = Ok (match SWT_init ex_s2let (fun _ => RtoC 0) 3 2 2 1 0 false with Ok t => t | Raise _ => mkSWT (mkS2P 0 0 0 0 0 0) 0 0 (fun _ _ => Raise ValueError) (fun _ _ _ => Raise ValueError) (fun _ _ _ => Raise ValueError) (fun _ _ => Raise ValueError) 0 0 0 end)) by reflexivity.
  set (t := match SWT_init ex_s2let _ _ _ _ _ _ _ with Ok t => t | Raise _ => _ end) in ET.
  destruct (C50_operator ex_healpy ex_ssht ex_s2let (fun _ => RtoC 0) (fun A => Ok A) "k.fits" 3 gb "synthesis" (vzero 15) shear ps t ltac:(lia) HS ex_truth HK ET eq_refl)
    as (f & E & FD & FI & FS & FT & FN & ms & FM & HM & _).
  assert (HI : image_of t "synthesis" (vzero 15 ++ k) k) by (right; split; [discriminate|reflexivity]).
  assert (EP := lens_fo_forward f t ex_ssht 3 "synthesis" ps ms _ k s FS FT FM HM HI HK2).
  set (preds := map _ ps) in EP. set (pr := mkPrior (fun _ => Ok 0) (fun x : vec => Ok x)). set (q := mkNum 1 1 1 false).
  assert (HR := proj1 FI). assert (HC := proj1 (proj2 FI)). rewrite map_length in HR, HC.
  assert (EL := logpi_value f pr q (vzero 15 ++ k) preds (length ps)).
  rewrite FD in EL. cbn [d_val] in EL. unfold preds in EL at 1 2. rewrite !map_length in EL. specialize (EL eq_refl eq_refl HR HC).
  cbn [pr pr_prior rbind] in EL. cbv zeta in EL.
  eexists ex_healpy, ex_ssht, ex_s2let, (fun _ => RtoC 0), (fun A => Ok A), "k.fits"%string, 3%nat, gb, (vzero 15), shear, ps, t, pr, q, (vzero 15 ++ k), k, s, f, preds, _, _, _.
  split; [lia|]. split; [exact HS|]. split; [exact ex_truth|]. split; [exact HK|]. split; [exact ET|]. split; [exact E|]. split; [exact HI|].
  split; [exact HK2|]. split; [exact EP|]. split; [exact EL|].
  assert (H13 : (1 <= 3)%nat) by lia.
  rewrite (C50_double_weighting ex_healpy ex_ssht ex_s2let _ _ "k.fits" 3 gb "synthesis" (vzero 15) shear ps t pr q (vzero 15 ++ k) k s f preds _ _ _ H13 HS ex_truth HK ET eq_refl E HI HK2 EP EL).
  assert (P : 0 < shear_chi2 ps shear s); [|lra].
  assert (I4 : In 4%nat ps).
  { apply HS. split; [lia|]. unfold in_survey, gb. change (4 / (2 * 3 - 1))%nat with 0%nat. rewrite (Rabs_right 90) by lra. split; [|lra].
    unfold mw_thetas. cbn [seq map nth]. unfold degrees. assert (PP := PI_RGT_0).
    match goal with |- 10 <= Rabs (90 - ?u) => replace u with 36; [rewrite Rabs_right; lra|] end. simpl. field. lra. }
  assert (G := gal_weight_pos).
  assert (NN : forall l, 0 <= rsum (map (fun p => Cmod (nth p shear (RtoC 0) - nth p s (RtoC 0))%C ^ 2 / (1 / gal_weight) ^ 2) l)).
  { induction l as [|a l IH]; [simpl; lra|]. cbn [map rsum fold_right]. unfold rsum in IH. apply Rplus_le_le_0_compat; auto.
    apply Rmult_le_pos; [apply pow2_ge_0|]. left. apply Rinv_0_lt_compat, pow_lt. unfold Rdiv. rewrite Rmult_1_l. apply Rinv_0_lt_compat; auto. }
  apply in_split in I4. destruct I4 as (l1 & l2' & ->). unfold shear_chi2. rewrite map_app. cbn [map].
  rewrite rsum_app. cbn [rsum fold_right]. assert (A1 := NN l1). assert (A2 := NN l2'). unfold rsum in A2.
  assert (A3 : 0 < Cmod (nth 4 shear (RtoC 0) - nth 4 s (RtoC 0))%C ^ 2 / (1 / gal_weight) ^ 2); [|lra].
  rewrite N4, M4. replace (nth 4 (vzero 15) (RtoC 0)) with (RtoC 0) by reflexivity. replace (nth 4 k (RtoC 0)) with (RtoC 1) by reflexivity.
  replace (RtoC (shear_factor 2) * RtoC 0 - RtoC (shear_factor 2) * RtoC 1)%C with (RtoC (- shear_factor 2)) by cplx.
  rewrite Cmod_R. unfold shear_factor. rewrite Ropp_involutive.
  assert (SQ : 0 < sqrt ((INR 2 + 2) * (INR 2 - 1) / ((INR 2 + 1) * INR 2))) by (apply sqrt_lt_R0; simpl; lra).
  rewrite Rabs_right by lra. apply Rmult_lt_0_compat; [apply pow_lt; auto|]. apply Rinv_0_lt_compat, pow_lt.
  unfold Rdiv. rewrite Rmult_1_l. apply Rinv_0_lt_compat; auto.
Qed.
Print Assumptions C50_misfit_refuted.

(** and the default analysis run fails *)
Theorem C50_analysis_refuted : exists hp S sl junk inv infile L gal_b kappa shear ps f np,
  (1 <= L)%nat /\ survey L gal_b ps /\ truth_map hp S infile L kappa /\ shear_of S L kappa shear /\
  lensing_operator hp S sl junk inv infile L (mw_thetas L) (mw_phis L) gal_b "analysis" = Ok f /\
  fo_nparams f = Some np /\ forall X, length X = np -> fo_forward f X = Raise ValueError.
Proof.
  set (gb := fun _ _ : R => 90). destruct (C50_measurement 3 gb ltac:(lia)) as (w & ps & _ & HS & _).
  destruct (ex_shear (vzero 15) (repeat_length _ 15)) as (shear & HK & _).
  destruct (C50_analysis_unusable ex_healpy ex_ssht ex_s2let (fun _ => RtoC 0) (fun A => Ok A) "k.fits" 3 gb (vzero 15) shear ps _ ltac:(lia) HS ex_truth HK eq_refl ltac:(discriminate))
    as (f & np & E & EN & H).
  exists ex_healpy, ex_ssht, ex_s2let, (fun _ => RtoC 0), (fun A => Ok A), "k.fits"%string, 3%nat, gb, (vzero 15), shear, ps, f, np.
  split; [lia|]. split; [exact HS|]. split; [exact ex_truth|]. split; [exact HK|]. split; [exact E|]. split; [exact EN|]. exact H.
Qed.
Print Assumptions C50_analysis_refuted.

(** at L = 3 the rows lie at 36, 108 and 180 degrees colatitude: nothing is masked
    by the equator; at L = 6 the third row (900/11 degrees) is *)
Example C50_case : exists ps, survey 3 (fun _ _ => 90) ps /\ ps = seq 0 15.
Proof.
  exists (seq 0 15). split; [|reflexivity]. split; [apply seq_sorted|]. intros p. rewrite in_seq. split; [|intros (H & _); lia].
  intros (_ & H). split; [lia|]. unfold in_survey. rewrite (Rabs_right 90) by lra. split; [|lra]. assert (PP := PI_RGT_0).
  assert (V : forall i, (i < 3)%nat -> degrees (nth i (mw_thetas 3) 0) = 36 + 72 * INR i).
  { intros i Hi. destruct i as [|[|[|i]]]; [| | |lia]; unfold mw_thetas, degrees; cbn [seq map nth]; simpl; field; lra. }
  assert (Hi : (p / (2 * 3 - 1) < 3)%nat) by (apply Nat.div_lt_upper_bound; simpl in *; lia). rewrite V by auto.
  destruct (p / (2 * 3 - 1))%nat as [|[|[|i]]]; [| | |lia]; simpl INR.
  - rewrite Rabs_right; lra.
  - rewrite Rabs_left; lra.
  - rewrite Rabs_left; lra.
Qed.
Example C50_case_masked : forall ps, survey 6 (fun _ _ => 90) ps -> In 21%nat ps /\ ~ In 22%nat ps.
Proof.
  intros ps (_ & H). assert (PP := PI_RGT_0).
  assert (V : forall i, (i < 3)%nat -> degrees (nth i (mw_thetas 6) 0) = 180 / 11 + 360 / 11 * INR i).
  { intros i Hi. destruct i as [|[|[|i]]]; [| | |lia]; unfold mw_thetas, degrees; cbn [seq map nth]; simpl; field; lra. }
  split.
  - apply H. split; [lia|]. unfold in_survey. change (21 / (2 * 6 - 1))%nat with 1%nat. rewrite V by lia. simpl INR.
    split; [rewrite Rabs_right; lra|]. rewrite Rabs_right; lra.
  - intros I. apply H in I. destruct I as (_ & A & _). revert A. change (22 / (2 * 6 - 1))%nat with 2%nat. rewrite V by lia. simpl INR.
    rewrite Rabs_right by lra. lra.
Qed.
