(** Property theorems about the priors (/repo/pxmcmc/prior.py; model Prior.v,
    vocabulary PriorSpec.v, OpSpec.v, ThreshSpec.v). *)
From Coq Require Import List ZArith Lia Bool Reals Lra Psatz String.
From Coquelicot Require Import Coquelicot.
From Verif Require Import PyBase PyBaseFacts CVec RSort Thresh ThreshSpec ThreshProof Quad QuadProof QuadMain
  Utils UtilsSpec UtilsProof OpSpec Prior PriorSpec PriorProof.
Import ListNotations.
Open Scope R_scope.

(** ** C34: synthesis setting *)

Theorem C34_synthesis_prox : forall fwd adj t p X, 0 <= t ->
  L1_init "synthesis" fwd adj (TScal t) = Ok p ->
  exists s, proxf p X = Ok s /\ unique_minimiser (fun u => t * L1_prior u) X s.
Proof.
  intros fwd adj t p X Ht H. injection H as <-. exists (map2 soft1 X (repeat t (List.length X))).
  rewrite synth_soft by reflexivity. cbn [p_T].
  assert (TH : thresholds (TScal t) (List.length X) (repeat t (List.length X))) by (split; [apply repeat_length|reflexivity]).
  split; [apply soft_thresholds; auto|]. apply is_prox_unique_minimiser.
  apply (is_prox_ext (wl1 (repeat t (List.length X)))).
  - intros u Hu. rewrite <- Hu. apply wl1_repeat.
  - apply soft_is_prox; [apply repeat_length|]. intros x Hx. apply repeat_spec in Hx. lra.
Qed.
Print Assumptions C34_synthesis_prox.

(** with one threshold per coefficient *)
Theorem C34_synthesis_prox_array : forall fwd adj Tl p X, (forall t, In t Tl -> 0 <= t) ->
  List.length Tl = List.length X -> L1_init "synthesis" fwd adj (TVec Tl) = Ok p ->
  exists s, proxf p X = Ok s /\ unique_minimiser (wl1 Tl) X s.
Proof.
  intros fwd adj Tl p X Ht HL H. injection H as <-. exists (map2 soft1 X Tl).
  rewrite synth_soft by reflexivity. split; [apply soft_same; auto|].
  apply is_prox_unique_minimiser, soft_is_prox; auto.
Qed.
Print Assumptions C34_synthesis_prox_array.

Theorem C34_prior_norm : forall X Y c,
  0 <= L1_prior X /\ (L1_prior X = 0 <-> forall z, In z X -> z = RtoC 0) /\
  L1_prior (vscal c X) = Cmod c * L1_prior X /\ L1_prior (vadd X Y) <= L1_prior X + L1_prior Y /\
  L1_prior X = rsum (map Cmod X).
Proof.
  intros X Y c. change L1_prior with l1norm.
  repeat match goal with |- _ /\ _ => split end; auto using l1norm_nonneg, l1norm_vscal, l1norm_triangle.
  apply l1norm_zero_iff.
Qed.
Print Assumptions C34_prior_norm.

(** the setting is checked *)
Theorem C34_setting : forall s fwd adj T,
  (s = "analysis"%string \/ s = "synthesis"%string -> L1_init s fwd adj T = Ok (mkL1 s fwd adj T)) /\
  (s <> "analysis"%string -> s <> "synthesis"%string -> L1_init s fwd adj T = Raise AssertionError).
Proof.
  intros s fwd adj T. unfold L1_init, known_setting. split.
  - intros [->| ->]; reflexivity.
  - intros A B. rewrite (proj2 (String.eqb_neq _ _) A), (proj2 (String.eqb_neq _ _) B). reflexivity.
Qed.
Print Assumptions C34_setting.

Example C34_case : exists p, L1_init "synthesis" (fun x => Ok x) (fun x => Ok x) (TScal 1) = Ok p /\
  proxf p [RtoC 3; RtoC (1/2)] = Ok [RtoC 2; RtoC 0] /\ L1_prior [RtoC 3; RtoC (-4)] = 7.
Proof.
  eexists. split; [reflexivity|]. split.
  - rewrite synth_soft by reflexivity. cbn [p_T]. rewrite soft_scal. cbn [map]. rewrite soft1_big by lra.
    unfold soft1. rewrite Cmod_R, Rabs_right by lra. destruct (Rle_dec (1/2) 1); [|lra]. do 3 f_equal. lra.
  - unfold L1_prior; simpl. rewrite !Cmod_R, Rabs_right, Rabs_left by lra. lra.
Qed.

(** ** C35: analysis setting *)

(** adj (pixels n -> coefficients m) and fwd (m -> n) adjoint to each other,
    adj o fwd = identity *)
Theorem C35_analysis_prox : forall fwd adj t p n m X, 0 <= t ->
  L1_init "analysis" fwd adj (TScal t) = Ok p ->
  adjoint_pair adj fwd n m -> left_inverse adj fwd m -> List.length X = n ->
  exists s, proxf p X = Ok s /\
    forall g, (forall u au, List.length u = n -> adj u = Ok au -> g u = t * l1norm au) -> unique_minimiser g X s.
Proof.
  intros fwd adj t p n m X Ht H AP LI HX. injection H as <-.
  destruct (analysis_prox (mkL1 "analysis" fwd adj (TScal t)) n m X (repeat t m) eq_refl AP LI HX) as [s [E P]].
  - split; [apply repeat_length|reflexivity].
  - intros x Hx. apply repeat_spec in Hx. lra.
  - exists s. split; auto. intros g Hg. apply is_prox_unique_minimiser, P. intros u au Hu Eu. cbn [p_adj] in Eu.
    rewrite (Hg u au Hu Eu). destruct AP as [A _]. rewrite <- (maps_len _ _ _ _ _ A Hu Eu). symmetry. apply wl1_repeat.
Qed.
Print Assumptions C35_analysis_prox.

(** operators used as witnesses: matrices with real entries *)
Definition mat_of (rows : list (list R)) (c : nat) : cmat :=
  mkMat (List.length rows) c (fun i j => RtoC (nth j (nth i rows []) 0)).

(** prox of the function that prior() returns: false, already for a rotation *)
Theorem C35_prior_prox_refuted : exists fwd adj t p n X s, 0 <= t /\
  L1_init "analysis" fwd adj (TScal t) = Ok p /\ adjoint_pair adj fwd n n /\
  left_inverse adj fwd n /\ left_inverse fwd adj n /\ List.length X = n /\ proxf p X = Ok s /\
  ~ unique_minimiser (fun u => t * L1_prior u) X s.
Proof.
  set (A := mat_of [[3/5; 4/5]; [-(4/5); 3/5]] 2).
  assert (EA : forall a b, np_dot A [a; b] = Ok [(RtoC (3/5) * a + RtoC (4/5) * b)%C; (RtoC (-(4/5)) * a + RtoC (3/5) * b)%C]).
  { intros. unfold np_dot, matvec; simpl. do 2 f_equal; [ring|]. f_equal. ring. }
  assert (EH : forall a b, np_dot (getH A) [a; b] = Ok [(RtoC (3/5) * a + RtoC (-(4/5)) * b)%C; (RtoC (4/5) * a + RtoC (3/5) * b)%C]).
  { intros. unfold np_dot, matvec; simpl. rewrite !Cconj_R. do 2 f_equal; [ring|]. f_equal. ring. }
  assert (two : forall x : vec, List.length x = 2%nat -> exists a b, x = [a; b]).
  { intros [|a [|b [|]]] H; try discriminate. eauto. }
  exists (np_dot (getH A)), (np_dot A), (7/10). eexists. exists 2%nat, [RtoC 1; RtoC 0].
  exists [RtoC (8/100); RtoC (-6/100)].
  split; [lra|]. split; [reflexivity|]. split; [apply (np_dot_adjoint A)|].
  assert (LI : left_inverse (np_dot A) (np_dot (getH A)) 2).
  { intros x fx Hx E. destruct (two x Hx) as [a [b ->]]. rewrite EH in E. injection E as <-. rewrite EA.
    do 2 f_equal; [|f_equal]; apply C_ext; simpl; field. }
  split; [exact LI|]. split.
  { intros x fx Hx E. destruct (two x Hx) as [a [b ->]]. rewrite EA in E. injection E as <-. rewrite EH.
    do 2 f_equal; [|f_equal]; apply C_ext; simpl; field. }
  split; [reflexivity|]. split.
  - rewrite analysis_unfold by reflexivity. unfold proxf_analysis. cbn [p_adj p_fwd p_T]. rewrite EA. cbn [rbind].
    rewrite soft_scal. cbn [map rbind].
    replace (RtoC (3 / 5) * RtoC 1 + RtoC (4 / 5) * RtoC 0)%C with (RtoC (3/5)) by (apply C_ext; simpl; field).
    replace (RtoC (-(4 / 5)) * RtoC 1 + RtoC (3 / 5) * RtoC 0)%C with (RtoC (-(4/5))) by (apply C_ext; simpl; field).
    unfold soft1. rewrite !Cmod_R, Rabs_right, Rabs_left by lra.
    destruct (Rle_dec (3/5) (7/10)); [|lra]. destruct (Rle_dec (- - (4/5)) (7/10)); [lra|].
    destruct (Req_EM_T (- - (4/5)) 0); [lra|]. cbn [rbind]. unfold np_sub. rewrite np_bin_same by reflexivity. cbn [map2 rbind].
    rewrite EH. cbn [rbind]. unfold np_add. rewrite np_bin_same by reflexivity. cbn [map2].
    do 2 f_equal; [|f_equal]; apply C_ext; simpl; field.
  - intros [_ [_ U]]. specialize (U [RtoC (3/10); RtoC 0] eq_refl).
    assert (Q : [RtoC (3/10); RtoC 0] = [RtoC (8/100); RtoC (-6/100)]).
    { apply U. unfold prox_objective, L1_prior, nrm2, vabs; simpl. rewrite <- !RtoC_minus, !Cmod_R.
      rewrite (Rabs_left (3/10 - 1)), (Rabs_right (0 - 0)), (Rabs_right (3/10)), Rabs_R0,
              (Rabs_left (8/100 - 1)), (Rabs_left (-6/100 - 0)), (Rabs_right (8/100)), (Rabs_left (-6/100)) by lra. lra. }
    injection Q as Q. lra.
Qed.
Print Assumptions C35_prior_prox_refuted.

(** a redundant tight frame (fwd o adj = identity): also false *)
Theorem C35_frame_refuted : exists fwd adj t p n m X s, 0 <= t /\
  L1_init "analysis" fwd adj (TScal t) = Ok p /\ adjoint_pair adj fwd n m /\ left_inverse fwd adj n /\
  List.length X = n /\ proxf p X = Ok s /\
  forall g, (forall u au, List.length u = n -> adj u = Ok au -> g u = t * l1norm au) -> ~ unique_minimiser g X s.
Proof.
  set (A := mat_of [[3/5]; [4/5]] 1).
  assert (EA : forall a, np_dot A [a] = Ok [(RtoC (3/5) * a)%C; (RtoC (4/5) * a)%C]).
  { intros. unfold np_dot, matvec; simpl. do 2 f_equal; [ring|]. f_equal. ring. }
  assert (EH : forall a b, np_dot (getH A) [a; b] = Ok [(RtoC (3/5) * a + RtoC (4/5) * b)%C]).
  { intros. unfold np_dot, matvec; simpl. rewrite !Cconj_R. do 2 f_equal. ring. }
  exists (np_dot (getH A)), (np_dot A), 1. eexists. exists 1%nat, 2%nat, [RtoC (14/10)], [RtoC (96/1000)].
  split; [lra|]. split; [reflexivity|]. split; [apply (np_dot_adjoint A)|]. split.
  { intros x fx Hx E. destruct x as [|a [|]]; try discriminate. rewrite EA in E. injection E as <-. rewrite EH.
    do 2 f_equal. apply C_ext; simpl; field. }
  split; [reflexivity|]. split.
  - rewrite analysis_unfold by reflexivity. unfold proxf_analysis. cbn [p_adj p_fwd p_T]. rewrite EA. cbn [rbind].
    rewrite soft_scal. cbn [map rbind]. rewrite <- !RtoC_mult.
    unfold soft1. rewrite !Cmod_R, !Rabs_right by lra.
    destruct (Rle_dec (3/5 * (14/10)) 1); [|lra]. destruct (Rle_dec (4/5 * (14/10)) 1); [lra|].
    destruct (Req_EM_T (4/5 * (14/10)) 0); [lra|]. cbn [rbind]. unfold np_sub. rewrite np_bin_same by reflexivity. cbn [map2 rbind].
    rewrite EH. cbn [rbind]. unfold np_add. rewrite np_bin_same by reflexivity. cbn [map2].
    do 2 f_equal. apply C_ext; simpl; field.
  - intros g G [_ [U _]]. specialize (U [RtoC 0] eq_refl). unfold prox_objective in U.
    rewrite (G [RtoC 0] _ eq_refl (EA (RtoC 0))), (G [RtoC (96/1000)] _ eq_refl (EA (RtoC (96/1000)))) in U.
    unfold l1norm, nrm2 in U; simpl in U. rewrite <- !RtoC_minus, <- !RtoC_mult, !Cmod_R in U.
    rewrite (Rabs_left (96/1000 - 14/10)), (Rabs_left (0 - 14/10)), (Rabs_right (3/5 * (96/1000))),
      (Rabs_right (4/5 * (96/1000))), (Rabs_right (3/5 * 0)), (Rabs_right (4/5 * 0)) in U by lra. lra.
Qed.
Print Assumptions C35_frame_refuted.

Example C35_case : exists p, L1_init "analysis" (fun x => Ok x) (fun x => Ok x) (TScal 1) = Ok p /\
  proxf p [RtoC 3] = Ok [RtoC 2].
Proof.
  eexists. split; [reflexivity|]. rewrite analysis_unfold by reflexivity. unfold proxf_analysis.
  cbn [p_adj p_fwd p_T rbind]. rewrite soft_scal. cbn [map rbind].
  rewrite soft1_big by lra. unfold np_sub, np_add. rewrite np_bin_same by reflexivity. cbn [map2 rbind].
  rewrite np_bin_same by reflexivity. cbn [map2]. do 2 f_equal. apply C_ext; simpl; ring.
Qed.

(** ** C36: weighted wavelet priors *)

(** S2_Wavelets_L1: weights are the quadrature weights of the band limits *)
Theorem C36_weights : forall setting fwd adj T L til p, S2_init setting fwd adj T L til = Ok p ->
  exists bls ws, multires_bandlimits L til = Ok bls /\
    Forall2 (fun b w => mw_map_weights (Z.of_nat b) = Ok w) bls ws /\ s_weights p = List.concat ws /\
    (forall q, In q (s_weights p) -> 0 < q).
Proof.
  intros setting fwd adj T L til p H. destruct (S2_init_inv _ _ _ _ _ _ _ H) as [_ [_ [_ [[bls [EB EW]] N]]]].
  unfold quad_weights in EW. destruct (rseq (map (fun el => mw_map_weights (Z.of_nat el)) bls)) as [ws|] eqn:E; [|discriminate].
  exists bls, ws. repeat match goal with |- _ /\ _ => split end; auto.
  - apply rseq_ok in E. clear -E. revert ws E. induction bls; intros [|w ws] E; simpl in E; try discriminate; constructor.
    + injection E; auto.
    + injection E; auto.
  - cbn [rbind] in EW. destruct ws; [discriminate|congruence].
Qed.
Print Assumptions C36_weights.

Theorem C36_prox : forall setting fwd adj t L til p X, 0 <= t ->
  S2_init setting fwd adj (TScal t) L til = Ok p -> List.length X = List.length (s_weights p) ->
  exists s, S2_proxf p X = Ok s /\
    forall g, (forall u, List.length u = List.length X -> S2_prior p u = Ok (g u)) ->
      unique_minimiser (fun u => t * g u) X s.
Proof.
  intros setting fwd adj t L til p X Ht H HX.
  destruct (S2_init_inv _ _ _ _ _ _ _ H) as [_ [PS [ET [_ N]]]]. simpl in ET. injection ET as ET.
  exists (map2 soft1 X (map (Rmult t) (s_weights p))). unfold S2_proxf. rewrite synth_soft, <- ET by auto.
  split; [apply soft_same; rewrite map_length; auto|]. intros g G. apply is_prox_unique_minimiser.
  apply (is_prox_ext (wl1 (map (Rmult t) (s_weights p)))).
  - intros u Hu. specialize (G u Hu). rewrite S2_prior_wl1 in G by (try congruence; intros; left; auto).
    injection G as <-. apply wl1_scal.
  - apply soft_is_prox; [rewrite map_length; auto|]. intros x Hx. apply in_map_iff in Hx. destruct Hx as [q [<- Hq]].
    apply Rmult_le_pos; auto. left. auto.
Qed.
Print Assumptions C36_prox.

(** the prior: sum of weight times modulus *)
Theorem C36_prior : forall setting fwd adj T L til p X, S2_init setting fwd adj T L til = Ok p ->
  List.length X = List.length (s_weights p) ->
  S2_prior p X = Ok (rsum (map2 (fun w x => w * Cmod x) (s_weights p) X)).
Proof.
  intros. destruct (S2_init_inv _ _ _ _ _ _ _ H) as [_ [_ [_ [_ N]]]]. apply S2_prior_wl1; auto. intros; left; auto.
Qed.
Print Assumptions C36_prior.

(** construction errors *)
Theorem C36_errors : forall setting fwd adj T L til,
  (setting = "analysis"%string -> S2_init setting fwd adj T L til = Raise NotImplementedError) /\
  (setting <> "analysis"%string -> setting <> "synthesis"%string -> S2_init setting fwd adj T L til = Raise AssertionError) /\
  (forall ts bls w, setting = "synthesis"%string -> T = TVec ts -> multires_bandlimits L til = Ok bls ->
     quad_weights bls = Ok w -> List.length ts <> List.length w -> List.length w <> 1%nat ->
     S2_init setting fwd adj T L til = Raise ValueError).
Proof.
  intros setting fwd adj T L til. split; [intros ->; reflexivity|]. split.
  - intros A B. unfold S2_init. rewrite (proj2 (C34_setting setting fwd adj T) A B). reflexivity.
  - intros ts bls w -> -> EB EW N1 N2. unfold S2_init. simpl. rewrite EB. cbn [rbind]. rewrite EW. cbn [rbind].
    pose proof (thr_imul_spec (TVec ts) w) as [_ Q]. simpl in Q. rewrite Q by auto. reflexivity.
Qed.
Print Assumptions C36_errors.

(** S2_Wavelets_L1_Power_Weights: what the weights are *)
Theorem C36_power_weights : forall setting fwd adj T L til0 til eta p,
  Power_init setting fwd adj T L til0 til eta = Ok p ->
  exists k s blocks, s_weights p = (s ++ List.concat blocks)%list /\
    is_bandlimit (window (phi_l til)) k /\ is_row_map k (power_weight k 1 (nrm2 (phi_l til))) s /\
    List.length blocks = Nat.min (List.length (psi_cols til0)) (List.length (psi_cols til)) /\
    (forall j, (j < List.length blocks)%nat -> exists b peak pw,
      is_bandlimit (window_m0 L (nth j (psi_cols til0) [])) b /\
      is_first_max (window_m0 L (nth j (psi_cols til) [])) L peak /\
      int_pow peak eta = Ok pw /\
      is_row_map b (power_weight b pw (nrm2 (nth j (psi_cols til) []))) (nth j blocks [])).
Proof.
  intros setting fwd adj T L til0 til eta p H.
  destruct (Power_init_inv _ _ _ _ _ _ _ _ _ H) as [b [s [ww [EB [ES [EW [W _]]]]]]].
  unfold scaling_weights in ES. destruct (bandlimit_of (phi_l til)) as [k|] eqn:EK; [|discriminate]. cbn [rbind] in ES.
  injection ES as ES. exists k, s, (map snd ww). destruct (wavelet_weights_spec _ _ _ _ _ EW) as [LW WS].
  repeat match goal with |- _ /\ _ => split end; auto.
  - apply bandlimit_of_ok; auto.
  - rewrite <- ES. eapply is_row_map_ext; [|apply sin_weights_rows]. intros t. unfold power_weight, sample_length.
    change (PI ^ 2) with (PI * (PI * 1)). f_equal. f_equal. ring.
  - rewrite map_length. auto.
  - intros j Hj. rewrite map_length in Hj. destruct (WS j Hj) as [b' [peak [pw [A [B [D [_ E]]]]]]].
    exists b', peak, pw. rewrite (nth_map_in _ _ _ _ (0%nat, [])) by auto. auto.
Qed.
Print Assumptions C36_power_weights.

(** the exponent: 1 by default *)
Theorem C36_eta : forall n z r,
  ((0 <= z)%Z -> int_pow n (EInt z) = Ok (INR n ^ Z.to_nat z)) /\ ((z < 0)%Z -> int_pow n (EInt z) = Raise ValueError) /\
  ((1 <= n)%nat -> int_pow n (EFloat r) = Ok (exp (r * ln (INR n)))) /\
  int_pow 0 (EFloat 0) = Ok 1 /\ (0 < r -> int_pow 0 (EFloat r) = Ok 0).
Proof.
  intros n z r. unfold int_pow. repeat match goal with |- _ /\ _ => split end.
  - intros H. destruct (Z.ltb_spec z 0); [lia|reflexivity].
  - intros H. destruct (Z.ltb_spec z 0); [reflexivity|lia].
  - intros H. destruct n; [lia|]. reflexivity.
  - destruct (Reqb_spec 0 0); [reflexivity|lra].
  - intros H. destruct (Reqb_spec r 0); [lra|reflexivity].
Qed.
Print Assumptions C36_eta.

(** threshold and prior of the power-weighted class: the threshold is T times
    quadrature times power weight, the prior carries the squared power weight;
    so the prox property holds exactly when the two weights agree wherever the
    power weight is nonzero *)
Theorem C36_power_consistent_iff : forall setting fwd adj t0 L til0 til eta p, 0 < t0 ->
  Power_init setting fwd adj (TScal t0) L til0 til eta = Ok p ->
  exists b, S2_init setting fwd adj (TScal t0) L til = Ok b /\
  let n := List.length (s_weights p) in
  ((forall X s g, List.length X = n -> S2_proxf p X = Ok s ->
      (forall u, List.length u = n -> Power_prior p u = Ok (g u)) -> unique_minimiser (fun u => t0 * g u) X s)
   <-> (forall i, (i < n)%nat -> nth i (s_weights b) 0 * nth i (s_weights p) 0 = nth i (s_weights p) 0 * nth i (s_weights p) 0)).
Proof. exact Power_consistent_iff. Qed.
Print Assumptions C36_power_consistent_iff.

Theorem C36_power_threshold_prior : forall setting fwd adj t0 L til0 til eta p X,
  Power_init setting fwd adj (TScal t0) L til0 til eta = Ok p -> List.length X = List.length (s_weights p) ->
  exists b, S2_init setting fwd adj (TScal t0) L til = Ok b /\
    p_T (s_l1 p) = TVec (map2 (fun q w => t0 * q * w) (s_weights b) (s_weights p)) /\
    S2_proxf p X = soft X (p_T (s_l1 p)) /\
    Power_prior p X = Ok (rsum (map2 (fun w x => w * w * Cmod x) (s_weights p) X)).
Proof.
  intros setting fwd adj t0 L til0 til eta p X H HX. destruct (Power_T _ _ _ _ _ _ _ _ _ H) as [b [EB [LE ET]]].
  destruct (Power_init_inv _ _ _ _ _ _ _ _ _ H) as [b' [s [ww [_ [_ [_ [_ [PS [_ [_ [NN _]]]]]]]]]]].
  exists b. repeat match goal with |- _ /\ _ => split end; auto.
  - unfold S2_proxf. apply synth_soft; auto.
  - rewrite Power_prior_wl1 by auto. unfold wl1. rewrite map2_map_l. reflexivity.
Qed.
Print Assumptions C36_power_threshold_prior.

(** the constructor fails when all wavelet scales have the same band limit
    (in particular for a single scale), and when there is no wavelet scale *)
Theorem C36_power_same_bandlimits : forall fwd adj T L til0 til eta b s ww,
  S2_init "synthesis" fwd adj T L til = Ok b -> scaling_weights til = Ok s ->
  wavelet_weights L til0 til eta = Ok ww ->
  (ww = [] -> Power_init "synthesis" fwd adj T L til0 til eta = Raise ValueError) /\
  (ww <> [] -> (forall e e', In e ww -> In e' ww -> fst e = fst e') ->
     Power_init "synthesis" fwd adj T L til0 til eta = Raise TypeError).
Proof.
  intros fwd adj T L til0 til eta b s ww EB ES EW. unfold Power_init. rewrite EB, ES, EW. cbn [rbind]. split.
  - intros ->. reflexivity.
  - intros N A. destruct ww as [|e ww]; [congruence|]. simpl map. unfold all_same.
    replace (forallb (Nat.eqb (fst e)) (map fst ww)) with true; [reflexivity|]. symmetry. apply forallb_forall.
    intros x Hx. apply in_map_iff in Hx. destruct Hx as [e' [<- He]]. apply Nat.eqb_eq, A; simpl; auto.
Qed.
Print Assumptions C36_power_same_bandlimits.

(** a tiling of band limit 2: the scaling function and the first wavelet live
    at l = 0, the second wavelet, of height c, at l = 1 *)
Definition til_witness (c : R) : tiling :=
  mkTiling [RtoC 1; RtoC 0] [[RtoC 1; RtoC 0; RtoC 0; RtoC 0]; [RtoC 0; RtoC 0; RtoC c; RtoC 0]].

Lemma sin_weights_length : forall b c, List.length (sin_weights b c) = (b * (2 * b - 1))%nat.
Proof. intros. apply sin_weights_rows. Qed.

Lemma til_witness_bandlimits : forall c, c <> 0 -> multires_bandlimits 2 (til_witness c) = Ok [1; 1; 2]%nat.
Proof.
  intros c Hc. apply multires_ok. simpl. repeat match goal with |- _ /\ _ => split end; auto.
  - intros psi [<-|[<-|[]]] [|[|el]] Hel; simpl; lia.
  - repeat split; simpl; auto; [intros X; apply RtoC_inj in X; lra|].
    intros [|[|l]] Hl; simpl; auto; [lia|]. destruct l; auto.
  - constructor; [|constructor; [|constructor]].
    + repeat split; simpl; auto; [intros X; apply RtoC_inj in X; lra|].
      intros [|[|l]] Hl; simpl; auto; lia.
    + repeat split; simpl; auto; [intros X; apply RtoC_inj in X; lra|].
      intros l Hl. unfold window_m0. destruct (Nat.ltb_spec l 2); [lia|reflexivity].
Qed.

Lemma til_witness_init : forall c Q1 Q2, 0 < c -> mw_map_weights 1 = Ok Q1 -> mw_map_weights 2 = Ok Q2 ->
  exists b p, S2_init "synthesis" (fun x => Ok x) (fun x => Ok x) (TScal 1) 2 (til_witness c) = Ok b /\
    Power_init "synthesis" (fun x => Ok x) (fun x => Ok x) (TScal 1) 2 (til_witness c) (til_witness c) (EInt 1) = Ok p /\
    s_weights b = (Q1 ++ Q1 ++ Q2)%list /\ List.length (s_weights p) = 8%nat /\
    nth 2 (s_weights p) 0 = 2 * PI ^ 2 / (c ^ 2 * 6) * sin (PI / 3).
Proof.
  intros c Q1 Q2 Hc E1 E2. assert (BL := til_witness_bandlimits c ltac:(lra)).
  assert (LQ1 := proj1 (weights_positive 1 Q1 ltac:(lia) E1)). assert (LQ2 := proj1 (weights_positive 2 Q2 ltac:(lia) E2)).
  simpl in LQ1, LQ2.
  assert (EQ : quad_weights [1; 1; 2]%nat = Ok (Q1 ++ Q1 ++ Q2)%list).
  { unfold quad_weights. simpl map. rewrite E1, E2. simpl. rewrite app_nil_r. reflexivity. }
  assert (EB : S2_init "synthesis" (fun x => Ok x) (fun x => Ok x) (TScal 1) 2 (til_witness c) =
    Ok (mkS2 (mkL1 "synthesis" (fun x => Ok x) (fun x => Ok x) (TVec (map (Rmult 1) (Q1 ++ Q1 ++ Q2)))) (Q1 ++ Q1 ++ Q2))).
  { unfold S2_init. cbn [L1_init known_setting]. change (known_setting "synthesis") with true. cbv iota. cbn [rbind].
    rewrite String.eqb_refl, BL. cbn [rbind]. rewrite EQ. reflexivity. }
  assert (ES : scaling_weights (til_witness c) = Ok (sin_weights 1 (2 * PI ^ 2 / (nrm2 [RtoC 1; RtoC 0] * INR (sample_length 1))))).
  { unfold scaling_weights. replace (bandlimit_of (phi_l (til_witness c))) with (Ok 1%nat); [reflexivity|]. symmetry.
    apply bandlimit_of_ok. repeat split; simpl; auto; [intros X; apply RtoC_inj in X; lra|].
    intros [|[|l]] Hl; simpl; auto; [lia|]. destruct l; auto. }
  assert (A0 : np_argmax [RtoC 1; RtoC 0] = Ok 0%nat).
  { unfold np_argmax, argmax_from. destruct (clex_ltb (RtoC 1) (RtoC 0)) eqn:X; auto. apply clex_ltb_spec in X.
    destruct X as [X|[X _]]; simpl in X; lra. }
  assert (A1 : np_argmax [RtoC 0; RtoC c] = Ok 1%nat).
  { unfold np_argmax, argmax_from. destruct (clex_ltb (RtoC 0) (RtoC c)) eqn:X; auto.
    assert (Y : clex_ltb (RtoC 0) (RtoC c) = true) by (apply clex_ltb_spec; left; simpl; lra). congruence. }
  set (P1 := nrm2 [RtoC 1; RtoC 0; RtoC 0; RtoC 0]). set (P2 := nrm2 [RtoC 0; RtoC 0; RtoC c; RtoC 0]).
  assert (EW : wavelet_weights 2 (til_witness c) (til_witness c) (EInt 1) =
    Ok [(1%nat, sin_weights 1 (2 * PI ^ 2 * (INR 0 ^ 1) / (P1 * INR (sample_length 1))));
        (2%nat, sin_weights 2 (2 * PI ^ 2 * (INR 1 ^ 1) / (P2 * INR (sample_length 2))))]).
  { unfold wavelet_weights. rewrite BL. cbn [rbind].
    replace (rseq (map (m0_part 2) (psi_cols (til_witness c)))) with (Ok [[RtoC 1; RtoC 0]; [RtoC 0; RtoC c]]) by reflexivity.
    cbn [rbind map rseq]. rewrite A0, A1. cbn [rbind]. reflexivity. }
  eexists. eexists. split; [exact EB|]. split; [|split; [reflexivity|]].
  - unfold Power_init. rewrite EB. cbn [rbind]. rewrite ES. cbn [rbind]. rewrite EW. cbn [rbind].
    change (all_same (map fst _)) with false. cbv iota. cbn [s_l1 p_T thr_imul].
    assert (LL : List.length (map (Rmult 1) (Q1 ++ Q1 ++ Q2)) = 8%nat) by (rewrite map_length, !app_length; lia).
    rewrite LL. match goal with |- context[Nat.eqb 8 (List.length ?w)] => assert (LW : List.length w = 8%nat) end.
    { cbn [map snd List.concat]. rewrite app_nil_r, !app_length.
      rewrite !sin_weights_length. reflexivity. }
    rewrite LW. change (Nat.eqb 8 8) with true. cbv iota. cbn [rbind]. reflexivity.
  - cbn [s_weights]. split.
    + cbn [map snd List.concat]. rewrite app_nil_r, !app_length.
      rewrite !sin_weights_length. reflexivity.
    + rewrite app_nth2 by (rewrite sin_weights_length; simpl; lia).
      rewrite sin_weights_length. simpl map. cbn [List.concat].
      rewrite app_nth2 by (rewrite sin_weights_length; simpl; lia).
      rewrite sin_weights_length. rewrite app_nil_r.
      change (2 - 1 * (2 * 1 - 1) - 1 * (2 * 1 - 1))%nat with (0 * (2 * 2 - 1) + 0)%nat.
      rewrite (proj2 (sin_weights_rows 2 _)) by lia.
      replace P2 with (c ^ 2).
      * simpl. replace (1 * PI / (1 + 1 + 1)) with (PI / 3) by field. f_equal. field. lra.
      * unfold P2, nrm2; simpl. rewrite !Cmod_R, !Rabs_R0, Rabs_right by lra. ring.
Qed.

(** the prox property fails for the power-weighted prior *)
Theorem C36_power_prox_refuted : exists fwd adj t0 L til eta p X s g, 0 < t0 /\
  Power_init "synthesis" fwd adj (TScal t0) L til til eta = Ok p /\ List.length X = List.length (s_weights p) /\
  S2_proxf p X = Ok s /\
  (forall u, List.length u = List.length (s_weights p) -> Power_prior p u = Ok (g u)) /\
  ~ unique_minimiser (fun u => t0 * g u) X s.
Proof.
  destruct (proj2 (weights_ok_iff 1) ltac:(lia)) as [Q1 E1]. destruct (proj2 (weights_ok_iff 2) ltac:(lia)) as [Q2 E2].
  destruct (weights_positive 1 Q1 ltac:(lia) E1) as [LQ1 _]. destruct (weights_positive 2 Q2 ltac:(lia) E2) as [LQ2 PQ].
  simpl in LQ1, LQ2. set (q := nth 0 Q2 0). assert (Hq : 0 < q) by (apply PQ, nth_In; lia).
  set (K := 2 * PI ^ 2 / 6 * sin (PI / 3)).
  assert (HK : 0 < K).
  { unfold K. assert (P := PI_RGT_0). apply Rmult_lt_0_compat; [|apply sin_gt_0; lra].
    apply Rdiv_lt_0_compat; [|lra]. assert (0 < PI ^ 2) by (apply pow_lt; lra). lra. }
  set (c := sqrt (K / (2 * q))). assert (Kq : 0 < K / (2 * q)) by (apply Rdiv_lt_0_compat; lra).
  assert (Hc : 0 < c) by (apply sqrt_lt_R0; auto).
  assert (C2 : c ^ 2 = K / (2 * q)) by (unfold c; rewrite pow2_sqrt; lra).
  destruct (til_witness_init c Q1 Q2 Hc E1 E2) as [b [p [EB [EP [WB [LP W2]]]]]].
  assert (WP : nth 2 (s_weights p) 0 = 2 * q).
  { rewrite W2. assert (T : 2 * PI ^ 2 / (c ^ 2 * 6) * sin (PI / 3) = K / c ^ 2) by (unfold K; field; lra).
    rewrite T, C2. field. lra. }
  assert (WQ : nth 2 (s_weights b) 0 = q).
  { rewrite WB. rewrite app_nth2 by lia. rewrite app_nth2 by lia. rewrite LQ1. reflexivity. }
  destruct (C36_power_consistent_iff _ _ _ _ _ _ _ _ _ Rlt_0_1 EP) as [b' [EB' I]].
  assert (b' = b) by congruence. subst b'. cbv zeta in I. rewrite LP in I.
  assert (N : ~ (forall i, (i < 8)%nat -> nth i (s_weights b) 0 * nth i (s_weights p) 0 = nth i (s_weights p) 0 * nth i (s_weights p) 0)).
  { intros A. specialize (A 2%nat ltac:(lia)). rewrite WP, WQ in A. nra. }
  apply Classical_Prop.NNPP. intros NE. apply N. apply I. intros X s g LX ES G.
  apply Classical_Prop.NNPP. intros NU. apply NE.
  exists (fun x => Ok x), (fun x => Ok x), 1, 2%nat, (til_witness c), (EInt 1), p, X, s, g. rewrite LP.
  repeat match goal with |- _ /\ _ => split end; auto. lra.
Qed.
Print Assumptions C36_power_prox_refuted.

(** both constructors succeed on that tiling *)
Example C36_case : exists b p,
  S2_init "synthesis" (fun x => Ok x) (fun x => Ok x) (TScal 1) 2 (til_witness 1) = Ok b /\
  Power_init "synthesis" (fun x => Ok x) (fun x => Ok x) (TScal 1) 2 (til_witness 1) (til_witness 1) (EInt 1) = Ok p /\
  List.length (s_weights b) = 8%nat /\ List.length (s_weights p) = 8%nat.
Proof.
  destruct (proj2 (weights_ok_iff 1) ltac:(lia)) as [Q1 E1]. destruct (proj2 (weights_ok_iff 2) ltac:(lia)) as [Q2 E2].
  destruct (til_witness_init 1 Q1 Q2 Rlt_0_1 E1 E2) as [b [p [EB [EP [WB [LP _]]]]]]. exists b, p.
  destruct (weights_positive 1 Q1 ltac:(lia) E1) as [LQ1 _]. destruct (weights_positive 2 Q2 ltac:(lia) E2) as [LQ2 _].
  repeat match goal with |- _ /\ _ => split end; auto. rewrite WB, !app_length, LQ1, LQ2. reflexivity.
Qed.
