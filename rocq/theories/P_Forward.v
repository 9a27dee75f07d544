(** C14, C15, C17: the forward operator, its covariance, and the log posterior. *)
From Coq Require Import List ZArith Lia Bool Reals Lra Psatz String.
From Coquelicot Require Import Coquelicot.
From Verif Require Import PyBase PyBaseFacts CVec RSort Thresh ThreshSpec ThreshProof Utils UtilsSpec
  OpSpec Prior PriorSpec PriorProof Forward Sampler Mcmc McmcSpec FwdProof.
Import ListNotations.
Open Scope R_scope.
Notation length := List.length.

(** ** C17: inverse covariance *)

(** exactly when construction succeeds *)
Theorem C17_accepted_iff : forall inv d s set tr ms np,
  (exists f, Forward_init inv d s set tr ms np = Ok f) <->
  (set = "analysis"%string \/ set = "synthesis"%string) /\
  match s with
  | SPy v c => v <> RtoC 0 \/ (d_complex d = true /\ c = false)
  | SNp v => d_complex d = true
  | SVec v c => length v = length (d_val d)
  | SMat A => m_rows A = m_cols A /\ exists B, inv A = Ok B
  | SNd _ => False
  end.
Proof.
  intros inv d s set tr ms np. unfold Forward_init.
  assert (K : known_setting set = true <-> (set = "analysis"%string \/ set = "synthesis"%string)).
  { unfold known_setting. rewrite orb_true_iff, !String.eqb_eq. reflexivity. }
  rewrite <- K. clear K. split.
  - intros (f & H). destruct (build_invcov inv d s) as [ic|] eqn:E; cbn [rbind] in H; [|discriminate].
    destruct (known_setting set); [|discriminate]. split; [reflexivity|].
    destruct s as [v c|v|v c|A|k]; unfold build_invcov in E.
    + destruct (d_complex d), c; auto; left; intros ->; cbn [andb negb] in E;
        unfold variance in E; cbn [andb negb] in E;
        (replace (RtoC 0 * RtoC 0)%C with (RtoC 0) in E by cplx); rewrite Cmod_0 in E;
        destruct (Reqb_spec 0 0); try lra; discriminate.
    + destruct (d_complex d); [reflexivity|discriminate].
    + rewrite map_length in E. destruct (Nat.eqb_spec (length v) (length (d_val d))); [auto|discriminate].
    + destruct (Nat.eqb_spec (m_rows A) (m_cols A)); [|discriminate]. eauto.
    + discriminate.
  - intros (-> & H). assert (Q : exists ic, build_invcov inv d s = Ok ic).
    { destruct s as [v c|v|v c|A|k]; unfold build_invcov.
      - destruct (Reqb_spec (Cmod (variance (d_complex d) v c)) 0) as [Z|Z]; [|rewrite andb_false_r; eauto].
        destruct H as [H|(-> & ->)]; [|simpl; eauto].
        destruct (d_complex d && negb c) eqn:DC; [simpl; eauto|]. exfalso. apply Cmod_eq_0 in Z.
        unfold variance in Z. rewrite DC in Z. exact (Cmult_neq_0 v v H H Z).
      - rewrite H. eauto.
      - rewrite map_length, H, Nat.eqb_refl. eauto.
      - destruct H as (-> & B & HB). rewrite Nat.eqb_refl. eauto.
      - contradiction. }
    destruct Q as (ic & ->). cbn [rbind]. eauto.
Qed.
Print Assumptions C17_accepted_iff.

(** which error otherwise; the covariance is checked before the setting *)
Theorem C17_errors : forall inv d set tr ms np,
  (forall A, m_rows A <> m_cols A -> Forward_init inv d (SMat A) set tr ms np = Raise ValueError) /\
  (forall v c, length v <> length (d_val d) -> Forward_init inv d (SVec v c) set tr ms np = Raise TypeError) /\
  (forall k, Forward_init inv d (SNd k) set tr ms np = Raise TypeError) /\
  (forall v, d_complex d = false -> Forward_init inv d (SNp v) set tr ms np = Raise TypeError) /\
  (forall c, d_complex d = false \/ c = true -> Forward_init inv d (SPy (RtoC 0) c) set tr ms np = Raise ZeroDivisionError) /\
  (forall s ic, build_invcov inv d s = Ok ic -> set <> "analysis"%string -> set <> "synthesis"%string ->
     Forward_init inv d s set tr ms np = Raise ValueError).
Proof.
  intros inv d set tr ms np. unfold Forward_init.
  split; [|split; [|split; [|split; [|split]]]].
  - intros A H. unfold build_invcov. rewrite (proj2 (Nat.eqb_neq _ _) H). reflexivity.
  - intros v c H. unfold build_invcov. rewrite map_length, (proj2 (Nat.eqb_neq _ _) H). reflexivity.
  - reflexivity.
  - intros v H. unfold build_invcov. rewrite H. reflexivity.
  - intros c H. unfold build_invcov.
    assert (DC : d_complex d && negb c = false) by (destruct H as [-> | ->]; [|rewrite andb_false_r]; reflexivity).
    unfold variance. rewrite DC. replace (RtoC 0 * RtoC 0)%C with (RtoC 0) by cplx.
    rewrite Cmod_0. destruct (Reqb_spec 0 0); [reflexivity|lra].
  - intros s ic -> N1 N2. cbn [rbind]. unfold known_setting.
    rewrite (proj2 (String.eqb_neq _ _) N1), (proj2 (String.eqb_neq _ _) N2). reflexivity.
Qed.
Print Assumptions C17_errors.

(** the matrix, when data and sig_d are both real or sig_d is complex: the
    diagonal of 1/sig^2; a matrix is inverted; all other attributes are the
    arguments *)
Theorem C17_matrix : forall inv d s set tr ms np f, Forward_init inv d s set tr ms np = Ok f ->
  (fo_data f = d /\ fo_setting f = set /\ fo_transform f = tr /\ fo_measurement f = ms /\ fo_nparams f = np) /\
  (forall v c, s = SPy v c -> d_complex d = false \/ c = true ->
     is_diagonal (fo_invcov f) (repeat (inv_sq v) (length (d_val d)))) /\
  (forall v c, s = SVec v c -> d_complex d = false \/ c = true ->
     length v = length (d_val d) /\ is_diagonal (fo_invcov f) (map inv_sq v)) /\
  (forall A, s = SMat A -> inv A = Ok (fo_invcov f)).
Proof.
  intros inv d s set tr ms np f H. destruct (Forward_init_ok _ _ _ _ _ _ _ _ H) as (B & _ & E).
  split; [rewrite E; cbn; auto 10|]. clear E H.
  assert (V : forall v c, d_complex d = false \/ c = true -> variance (d_complex d) v c = (v * v)%C).
  { intros v c [-> | ->]; unfold variance; [reflexivity|]. rewrite andb_false_r. reflexivity. }
  split; [|split].
  - intros v c -> HC. unfold build_invcov in B. rewrite V in B by auto. destruct (_ && _); [discriminate|].
    injection B as <-. apply scaled_identity_diagonal.
  - intros v c -> HC. unfold build_invcov in B. rewrite map_length in B.
    destruct (Nat.eqb_spec (length v) (length (d_val d))); [|discriminate]. split; [auto|]. injection B as <-.
    rewrite map_map. rewrite (map_ext _ inv_sq); [apply diags_diagonal|]. intros a. rewrite V by auto. reflexivity.
  - intros A ->. unfold build_invcov in B. destruct (Nat.eqb (m_rows A) (m_cols A)); [exact B|discriminate].
Qed.
Print Assumptions C17_matrix.

(** complex data with real errors: the entries get the extra factor (1-i)/sqrt 2 *)
Theorem C17_matrix_complex_data : forall inv d sd s set tr ms np, known_setting set = true ->
  d_complex d = true -> real_errors sd (length (d_val d)) s ->
  exists f, Forward_init inv d sd set tr ms np = Ok f /\
    is_diagonal (fo_invcov f) (map (fun a => RtoC (1 / a ^ 2) * ((RtoC 1 - Ci) / RtoC (sqrt 2)))%C s).
Proof.
  intros inv d sd s set tr ms np K DC RE. destruct (complex_errors_invcov inv d sd s DC RE) as (W & EW & DW).
  unfold Forward_init. rewrite EW, K. cbn [rbind]. eexists; split; [reflexivity|]. exact DW.
Qed.
Print Assumptions C17_matrix_complex_data.

(** so the entries are not 1/sig^2 for complex data *)
Theorem C17_complex_data_refuted : exists inv d sd set f,
  Forward_init inv d sd set None None None = Ok f /\ sd = SPy (RtoC 1) false /\ length (d_val d) = 1%nat /\
  ~ is_diagonal (fo_invcov f) [inv_sq (RtoC 1)].
Proof.
  exists (fun A => Ok A), (mkData [RtoC 1] true), (SPy (RtoC 1) false), "analysis"%string.
  destruct (C17_matrix_complex_data (fun A => Ok A) (mkData [RtoC 1] true) (SPy (RtoC 1) false) [1] "analysis"%string None None None)
    as (f & E & D); auto.
  { split; [reflexivity|]. split; [intros a [<-|[]]; lra|]. left. exists 1. split; [lra|]. auto. }
  exists f. split; [exact E|]. split; [auto|]. split; [auto|]. intros (_ & _ & H). destruct D as (_ & _ & D).
  specialize (H O O ltac:(simpl; lia) ltac:(simpl; lia)). specialize (D O O ltac:(simpl; lia) ltac:(simpl; lia)).
  rewrite D in H. cbn [Nat.eqb nth map] in H. assert (P := sqrt2_pos).
  assert (Q : ((RtoC 1 - Ci) / RtoC (sqrt 2))%C = (/ sqrt 2, - / sqrt 2)).
  { unfold Cdiv. rewrite <- RtoC_inv by lra. unfold Ci. cplx. }
  rewrite Q in H. assert (I := f_equal snd H). unfold inv_sq, Cdiv, Cinv in I. simpl in I.
  assert (0 < / sqrt 2) by (apply Rinv_0_lt_compat; lra).
  replace (/ (1 * (1 * 1))) with 1 in I by field. field_simplify in I; nra.
Qed.
Print Assumptions C17_complex_data_refuted.

Example C17_case : forall inv set, known_setting set = true ->
  exists f, Forward_init inv (mkData [RtoC 5; RtoC 6] false) (SVec [RtoC 2; RtoC 4] false) set None None None = Ok f /\
  m_ent (fo_invcov f) 0 0 = RtoC (1/4) /\ m_ent (fo_invcov f) 1 1 = RtoC (1/16) /\ m_ent (fo_invcov f) 0 1 = RtoC 0.
Proof.
  intros inv set K. destruct (proj2 (C17_accepted_iff inv (mkData [RtoC 5; RtoC 6] false) (SVec [RtoC 2; RtoC 4] false) set None None None)) as (f & E).
  - split; [|reflexivity]. unfold known_setting in K. rewrite orb_true_iff, !String.eqb_eq in K. auto.
  - exists f. split; [exact E|]. destruct (C17_matrix _ _ _ _ _ _ _ _ E) as (_ & _ & H & _).
    destruct (H _ _ eq_refl (or_introl eq_refl)) as (_ & _ & _ & D).
    rewrite !D by (simpl; lia). simpl. unfold inv_sq.
    rewrite <- !RtoC_mult, <- !RtoC_div by lra. split; [f_equal; lra|]. split; [f_equal; lra|reflexivity].
Qed.

(** ** C14: log posterior *)

Theorem C14_decomposition : forall f pr q X preds n, length (d_val (fo_data f)) = n -> length preds = n ->
  m_rows (fo_invcov f) = n -> m_cols (fo_invcov f) = n ->
  (forall e, pr_prior pr X = Raise e -> logpi f pr q X preds = Raise e) /\
  (forall p, pr_prior pr X = Ok p -> exists lp l2,
     logpi f pr q X preds = Ok (lp, l2, RtoC p) /\
     l2 = quadform (fo_invcov f) (vsub (d_val (fo_data f)) preds) /\
     lp = (- (RtoC (n_mu q) * RtoC p) - l2)%C).
Proof.
  intros f pr q X preds n Hd Hp Hr Hc. rewrite (logpi_value f pr q X preds n) by auto. split.
  - intros e ->. reflexivity.
  - intros p ->. cbn [rbind]. cbv zeta. eauto.
Qed.
Print Assumptions C14_decomposition.

(** real data, real nonzero errors *)
Theorem C14_real_data : forall inv d sd s set tr ms np f pr q X preds lp l2 p,
  Forward_init inv d sd set tr ms np = Ok f -> d_complex d = false -> real_errors sd (length (d_val d)) s ->
  length preds = length (d_val d) -> logpi f pr q X preds = Ok (lp, l2, p) ->
  l2 = RtoC (chi2 s (vsub (d_val d) preds)) /\ 0 <= Re l2 /\ (l2 = RtoC 0 <-> preds = d_val d) /\
  (0 <= n_mu q -> 0 <= Re p -> Im lp = 0 /\ Re lp <= 0).
Proof.
  intros inv d sd s set tr ms np f pr q X preds lp l2 p EF DC RE LP E.
  destruct (Forward_init_ok _ _ _ _ _ _ _ _ EF) as (B & _ & Ef).
  destruct (real_errors_invcov inv d sd s DC RE) as (W & EW & DW). rewrite EW in B. injection B as B. rewrite <- B in *.
  assert (HR := proj1 DW). assert (HC := proj1 (proj2 DW)). rewrite map_length in HR, HC. destruct RE as (Ls & N & _).
  assert (Ed : fo_data f = d) by (rewrite Ef; reflexivity).
  rewrite (logpi_value f pr q X preds (length (d_val d))) in E by (rewrite ?Ed; congruence).
  destruct (pr_prior pr X) as [p'|]; cbn [rbind] in E; [|discriminate]. cbv zeta in E. injection E as E1 E2 E3.
  rewrite <- B, Ed in E1, E2.
  rewrite (chi2_quadform W s) in E1, E2 by (auto; rewrite vsub_length; congruence).
  split; [auto|]. assert (P := chi2_nonneg s (vsub (d_val d) preds)).
  split; [rewrite <- E2; exact P|]. split.
  - rewrite <- E2. rewrite <- vsub_zero_iff by auto.
    assert (S : (forall z, In z (vsub (d_val d) preds) -> z = RtoC 0) <-> (forall z, In z (vsub preds (d_val d)) -> z = RtoC 0)).
    { rewrite !vsub_zero_iff by auto. split; auto. }
    rewrite <- S, <- (chi2_zero s) by (auto; rewrite vsub_length; congruence).
    split; [intros H; apply RtoC_inj; exact H|intros ->; reflexivity].
  - intros M P'. rewrite <- E1, <- E3 in *. unfold Re, Im in *; simpl in *. split; [ring|nra].
Qed.
Print Assumptions C14_real_data.

(** the L1 priors are nonnegative *)
Theorem C14_priors_nonneg : (forall X, 0 <= L1_prior X) /\
  (forall s X p, S2_prior s X = Ok p -> 0 <= p) /\ (forall s X p, Power_prior s X = Ok p -> 0 <= p).
Proof.
  assert (A : forall X, 0 <= L1_prior X).
  { intros X. rewrite L1_prior_l1norm. apply l1norm_nonneg. }
  assert (B : forall s X p, S2_prior s X = Ok p -> 0 <= p).
  { intros s X p H. unfold S2_prior in H. destruct (np_mul _ _); cbn [rbind] in H; [injection H as <-; apply A|discriminate]. }
  split; [exact A|]. split; [exact B|]. intros s X p H. unfold Power_prior in H.
  destruct (np_mul _ _); cbn [rbind] in H; [eapply B; exact H|discriminate].
Qed.
Print Assumptions C14_priors_nonneg.

(** complex data, real errors: L2 = chi^2 * (1-i)/sqrt 2, so L2 and logPi are
    not real unless the fit is perfect *)
Theorem C14_complex_data_not_real : forall inv d sd s set tr ms np f pr q X preds lp l2 p,
  Forward_init inv d sd set tr ms np = Ok f -> d_complex d = true -> real_errors sd (length (d_val d)) s ->
  length preds = length (d_val d) -> logpi f pr q X preds = Ok (lp, l2, p) ->
  l2 = (RtoC (chi2 s (vsub (d_val d) preds)) * ((RtoC 1 - Ci) / RtoC (sqrt 2)))%C /\
  (Im l2 = 0 <-> preds = d_val d) /\ (Im lp = 0 <-> preds = d_val d).
Proof.
  intros inv d sd s set tr ms np f pr q X preds lp l2 p EF DC RE LP E.
  destruct (Forward_init_ok _ _ _ _ _ _ _ _ EF) as (B & _ & Ef).
  destruct (complex_errors_invcov inv d sd s DC RE) as (W & EW & DW). rewrite EW in B. injection B as B. rewrite <- B in *.
  assert (HR := proj1 DW). assert (HC := proj1 (proj2 DW)). rewrite map_length in HR, HC. destruct RE as (Ls & N & _).
  assert (Ed : fo_data f = d) by (rewrite Ef; reflexivity).
  rewrite (logpi_value f pr q X preds (length (d_val d))) in E by (rewrite ?Ed; congruence).
  destruct (pr_prior pr X) as [p'|]; cbn [rbind] in E; [|discriminate]. cbv zeta in E. injection E as E1 E2 E3.
  rewrite <- B, Ed in E1, E2.
  set (D := vsub (d_val d) preds) in *. assert (LD : length D = length (d_val d)) by (unfold D; rewrite vsub_length; congruence).
  assert (Q : quadform W D = (RtoC (chi2 s D) * ((RtoC 1 - Ci) / RtoC (sqrt 2)))%C).
  { rewrite (quadform_diagonal W _ D DW) by (rewrite map_length; congruence). unfold chi2.
    rewrite <- csum_RtoC, map_map2, map2_map_l.
    assert (LL : length s = length D) by congruence. clear - LL. revert s LL. induction D as [|z D IH]; intros [|a s] LL; cbn [map2 csum fold_right]; try (simpl in LL; lia).
    - ring.
    - simpl in LL. unfold csum in IH. rewrite IH by lia.
      replace (RtoC (Cmod z ^ 2 / a ^ 2)) with (RtoC (1 / a ^ 2) * RtoC (Cmod z ^ 2))%C by (rewrite <- RtoC_mult; f_equal; unfold Rdiv; ring). ring. }
  split; [congruence|]. rewrite Q in E1, E2. assert (P := sqrt2_pos).
  assert (Q2 : ((RtoC 1 - Ci) / RtoC (sqrt 2))%C = (/ sqrt 2, - / sqrt 2)).
  { unfold Cdiv. rewrite <- RtoC_inv by lra. unfold Ci. cplx. }
  rewrite Q2 in E1, E2. assert (I : 0 < / sqrt 2) by (apply Rinv_0_lt_compat; lra).
  assert (Z : chi2 s D = 0 <-> preds = d_val d).
  { rewrite chi2_zero by (auto; congruence). unfold D. rewrite vsub_zero_iff by auto. split; auto. }
  rewrite <- Z, <- E1, <- E2. unfold Im; simpl. split; (split; [intros H|intros ->; ring]).
  - assert (chi2 s D * / sqrt 2 = 0) by lra. nra.
  - assert (chi2 s D * / sqrt 2 = 0) by lra. nra.
Qed.
Print Assumptions C14_complex_data_not_real.

Example C14_case : forall tr ms np X, exists f,
  Forward_init (fun A => Ok A) (mkData [RtoC 1; RtoC 5] false) (SVec [RtoC 1; RtoC 2] false) "analysis" tr ms np = Ok f /\
  logpi f (mkPrior (fun _ => Ok 3) (fun x => Ok x)) (mkNum 1 2 1 false) X [RtoC 4; RtoC 1] = Ok (RtoC (-19), RtoC 13, RtoC 3).
Proof.
  intros tr ms np X.
  destruct (proj2 (C17_accepted_iff (fun A => Ok A) (mkData [RtoC 1; RtoC 5] false) (SVec [RtoC 1; RtoC 2] false) "analysis"%string tr ms np)) as (f & E); [split; auto|].
  exists f. split; [exact E|]. destruct (Forward_init_ok _ _ _ _ _ _ _ _ E) as (B & _ & Ef).
  assert (RE : real_errors (SVec [RtoC 1; RtoC 2] false) 2 [1; 2]).
  { split; [reflexivity|]. split; [intros a [<-|[<-|[]]]; lra|]. right; reflexivity. }
  destruct (real_errors_invcov (fun A => Ok A) (mkData [RtoC 1; RtoC 5] false) _ [1; 2] eq_refl RE) as (W & EW & DW).
  rewrite EW in B. injection B as B. assert (HR := proj1 DW). assert (HC := proj1 (proj2 DW)).
  assert (Ed : fo_data f = mkData [RtoC 1; RtoC 5] false) by (rewrite Ef; reflexivity). clear Ef.
  rewrite (logpi_value f _ _ X [RtoC 4; RtoC 1] 2) by (rewrite ?Ed, <- ?B; auto). cbn [rbind pr_prior n_mu]. cbv zeta.
  rewrite <- B, (chi2_quadform W [1; 2]) by (auto; rewrite Ed; reflexivity).
  replace (chi2 [1; 2] (vsub (d_val (fo_data f)) [RtoC 4; RtoC 1])) with 13.
  - f_equal. f_equal. f_equal. cplx.
  - rewrite Ed. cbn [fo_data d_val vsub map2]. unfold chi2. cbn [map2 rsum fold_right]. rewrite !Cmod_sq. simpl. field.
Qed.

(** ** C15: calc_gradg *)

(** the function of the parameters that enters logpi *)
Definition L2_of (f : forward_op) (pr : prior_obj) (q : numparams) (X : vec) (l2 : C) : Prop :=
  exists preds lp p, fo_forward f X = Ok preds /\ logpi f pr q X preds = Ok (lp, l2, p).

(** exact expansion, both settings ([linear_model] says what is assumed of the
    operators in each) *)
Theorem C15_gradient_of_half_L2 : forall f pr q p m X preds,
  linear_model f p m -> hermitian (fo_invcov f) m -> length (d_val (fo_data f)) = m -> length X = p ->
  fo_forward f X = Ok preds ->
  exists g, fo_gradg f preds = Ok g /\ length g = p /\
    forall h l2 l2', length h = p -> L2_of f pr q X l2 -> L2_of f pr q (vadd X h) l2' ->
      exists fh, fo_forward f h = Ok fh /\
        Im l2 = 0 /\ Im l2' = 0 /\
        (1 / 2) * Re l2' = (1 / 2) * Re l2 + Re (cdot g h) + (1 / 2) * Re (quadform (fo_invcov f) fh).
Proof.
  intros f pr q p m X preds LM HW Hd HX EX.
  assert (Z : exists h, length h = p) by (exists X; auto). destruct Z as (h0 & Hh0).
  destruct (gradg_expansion f p m X h0 LM HW Hd HX Hh0) as (fx & fh0 & fxh0 & g & A1 & _ & _ & Lx & _ & _ & A7 & A8 & _).
  rewrite EX in A1. injection A1 as <-. exists g. split; [auto|]. split; [auto|].
  intros h l2 l2' Hh (pd & lp & p1 & E1 & E2) (pd' & lp' & p1' & E1' & E2').
  destruct (gradg_expansion f p m X h LM HW Hd HX Hh) as (fx & fh & fxh & g' & B1 & B2 & B3 & L1 & L2 & L3 & B7 & B8 & B9).
  rewrite EX in B1, E1. injection B1 as <-. injection E1 as <-. rewrite B3 in E1'. injection E1' as <-.
  rewrite A7 in B7. injection B7 as <-.
  assert (HW' := HW). destruct HW' as (HR & HC & _).
  rewrite (logpi_value f pr q X preds m) in E2 by auto. rewrite (logpi_value f pr q (vadd X h) fxh m) in E2' by auto.
  destruct (pr_prior pr X) as [pp|]; cbn [rbind] in E2; [|discriminate]. cbv zeta in E2. injection E2 as _ E2 _.
  destruct (pr_prior pr (vadd X h)) as [pp'|]; cbn [rbind] in E2'; [|discriminate]. cbv zeta in E2'. injection E2' as _ E2' _.
  exists fh. split; [auto|]. rewrite <- E2, <- E2'.
  assert (I1 := quadform_real (fo_invcov f) (vsub (d_val (fo_data f)) preds) ltac:(rewrite vsub_length by congruence; rewrite Hd; auto)).
  assert (I2 := quadform_real (fo_invcov f) (vsub (d_val (fo_data f)) fxh) ltac:(rewrite vsub_length by congruence; rewrite Hd; auto)).
  split; [exact I1|]. split; [exact I2|]. rewrite B9. rewrite !Re_plus, Re_RtoC. lra.
Qed.
Print Assumptions C15_gradient_of_half_L2.

(** and only that vector has the first-order property *)
Theorem C15_gradient_unique : forall f pr q p m X preds g g',
  linear_model f p m -> hermitian (fo_invcov f) m -> length (d_val (fo_data f)) = m -> length X = p ->
  (forall Y, length Y = p -> exists r, pr_prior pr Y = Ok r) ->
  fo_forward f X = Ok preds -> fo_gradg f preds = Ok g -> length g' = p ->
  (forall h l2 l2' fh, length h = p -> L2_of f pr q X l2 -> L2_of f pr q (vadd X h) l2' -> fo_forward f h = Ok fh ->
     (1 / 2) * Re l2' = (1 / 2) * Re l2 + Re (cdot g' h) + (1 / 2) * Re (quadform (fo_invcov f) fh)) ->
  g' = g.
Proof.
  intros f pr q p m X preds g g' LM HW Hd HX HP EX EG Lg' H.
  destruct (C15_gradient_of_half_L2 f pr q p m X preds LM HW Hd HX EX) as (g0 & A & Lg & B).
  rewrite EG in A. injection A as <-.
  assert (Q : forall h, length h = p -> Re (cdot g' h) = Re (cdot g h)).
  { intros h Hh. destruct (gradg_expansion f p m X h LM HW Hd HX Hh) as (fx & fh & fxh & g1 & B1 & B2 & B3 & L1 & L2 & L3 & _).
    rewrite EX in B1. injection B1 as <-. assert (HW' := HW). destruct HW' as (HR & HC & _).
    assert (LXh : length (vadd X h) = p) by (rewrite vadd_length; congruence).
    destruct (HP X HX) as (r & Er). destruct (HP _ LXh) as (r' & Er').
    assert (T1 : L2_of f pr q X (quadform (fo_invcov f) (vsub (d_val (fo_data f)) preds))).
    { do 3 eexists. split; [exact EX|]. rewrite (logpi_value f pr q X preds m) by auto. rewrite Er. reflexivity. }
    assert (T2 : L2_of f pr q (vadd X h) (quadform (fo_invcov f) (vsub (d_val (fo_data f)) fxh))).
    { do 3 eexists. split; [exact B3|]. rewrite (logpi_value f pr q (vadd X h) fxh m) by auto. rewrite Er'. reflexivity. }
    specialize (H h _ _ fh Hh T1 T2 B2). destruct (B h _ _ Hh T1 T2) as (fh' & E & _ & _ & B'). rewrite B2 in E. injection E as <-. lra. }
  assert (L : length (vsub g' g) = p) by (rewrite vsub_length; congruence).
  apply vsub_zero_eq; [congruence|].
  assert (N : Re (cdot (vsub g' g) (vsub g' g)) = 0).
  { rewrite cdot_vsub_l by congruence. rewrite Re_minus, Q by auto. ring. }
  rewrite cdot_self in N. exact N.
Qed.
Print Assumptions C15_gradient_unique.

Lemma ok_triple : forall {A} (a b c x y z : A), a = x -> b = y -> c = z -> Ok (a, b, c) = Ok (x, y, z).
Proof. intros; subst; reflexivity. Qed.

(** It is not the gradient of L2 itself, the term of logPi: at X = 0 the
    derivative of L2 is -2 while calc_gradg gives -1. *)
Theorem C15_gradient_of_L2_refuted : exists f pr q p m X preds g h (L : R -> R),
  linear_model f p m /\ hermitian (fo_invcov f) m /\ length X = p /\ length h = p /\
  (forall t, L2_of f pr q (vadd X (vscal (RtoC t) h)) (RtoC (L t))) /\
  fo_forward f X = Ok preds /\ fo_gradg f preds = Ok g /\
  is_derive L 0 (-2) /\ Re (cdot g h) = -1 /\ ~ is_derive L 0 (Re (cdot g h)).
Proof.
  exists (unit_fwd (RtoC 1)), (mkPrior (fun _ => Ok 0) (fun x => Ok x)), (mkNum 1 1 1 false), 1%nat, 1%nat.
  exists [RtoC 0], [RtoC 0], [RtoC (-1)], [RtoC 1], (fun t => (1 - t) ^ 2).
  assert (D : is_derive (fun t : R => (1 - t) ^ 2) 0 (-2)) by (auto_derive; auto; ring).
  split; [left; split; [reflexivity|]; exists id_meas; split; [reflexivity|]; split; [|split]|].
  - intros x H; eexists; split; [reflexivity|auto].
  - intros x H; eexists; split; [reflexivity|auto].
  - intros x y fx gy _ _ E F. simpl in E, F. congruence.
  - split; [split; [reflexivity|split; [reflexivity|]]; intros [|i] [|j] Hi Hj; try lia; simpl; cplx|].
    split; [reflexivity|]. split; [reflexivity|]. split.
    { intros t. exists [RtoC t], (RtoC (- (1 - t) ^ 2)), (RtoC 0). split.
      - unfold fo_forward, vadd, vscal; simpl. f_equal. f_equal. cplx.
      - rewrite (logpi_value (unit_fwd (RtoC 1)) _ _ _ [RtoC t] 1) by reflexivity. cbn [rbind pr_prior n_mu unit_fwd fo_invcov fo_data d_val vsub map2].
        rewrite (quadform_diagonal _ [RtoC 1]) by (reflexivity || apply (scaled_identity_diagonal 1)).
        cbn [map2 csum fold_right]. rewrite Cmod_sq. cbv zeta. apply ok_triple; cplx. }
    split; [reflexivity|]. split.
    { unfold fo_gradg, gradg_analysis, unit_fwd. cbn [fo_setting fo_measurement attr rbind String.eqb Ascii.eqb Bool.eqb fo_data d_val fo_invcov].
      cbn. f_equal. f_equal. cplx. }
    split; [exact D|].
    assert (E : Re (cdot [RtoC (-1)] [RtoC 1]) = -1) by (unfold cdot, Re; simpl; ring). split; [exact E|].
    rewrite E. intros D'. assert (U := is_derive_unique _ _ _ D). rewrite (is_derive_unique _ _ _ D') in U. lra.
Qed.
Print Assumptions C15_gradient_of_L2_refuted.

(** a nonzero synthesis case: measurement doubles, transform triples *)
Example C15_case : forall pr q,
  let sc c := fun x => Ok (vscal (RtoC c) x) in
  let f := mkFwd (mkData [RtoC 1] false) (scaled_identity 1 (RtoC 1)) "synthesis"
             (Some (mkTransform (sc 3) (sc 3))) (Some (mkMeas (sc 2) (sc 2))) (Some 1%nat) in
  fo_forward f [RtoC 1] = Ok [RtoC 6] /\ fo_gradg f [RtoC 6] = Ok [RtoC 30] /\
  (forall pr0, pr_prior pr [RtoC 1] = Ok pr0 -> exists lp, logpi f pr q [RtoC 1] [RtoC 6] = Ok (lp, RtoC 25, RtoC pr0)).
Proof.
  intros pr q sc f. split; [unfold fo_forward; simpl; unfold sc, vscal; simpl; f_equal; f_equal; cplx|]. split.
  - unfold fo_gradg, gradg_analysis; simpl. unfold sc, vscal; simpl. f_equal. f_equal. cplx.
  - intros p Ep. rewrite (logpi_value f pr q _ [RtoC 6] 1) by reflexivity. rewrite Ep. cbn [rbind]. cbv zeta. eexists.
    assert (Q : quadform (fo_invcov f) (vsub (d_val (fo_data f)) [RtoC 6]) = RtoC 25).
    { rewrite (quadform_diagonal _ [RtoC 1]) by (reflexivity || apply (scaled_identity_diagonal 1)).
      cbn [map2 csum fold_right vsub fo_data f d_val]. rewrite Cmod_sq. cplx. }
    rewrite Q. reflexivity.
Qed.
