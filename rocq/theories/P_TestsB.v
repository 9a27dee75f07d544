(** C54, second part: test_forward.py, test_proxes.py, test_mcmc.py and
    test_transforms.py, for all inputs instead of random ones. *)
From Coq Require Import List ZArith Lia Bool Reals Lra String.
From Coquelicot Require Import Coquelicot.
From Verif Require Import PyBase PyBaseFacts Sampler SamplerSpec SamplerFacts LoopProof SamplerMain WorksProof CVec RSort Thresh ThreshSpec ThreshProof Utils Quad OpSpec Prior
  PriorProof P_Prior Measure MeasSpec MeasProof P_Meas Forward FwdProof Transforms TransSpec P_Trans Mcmc McmcSpec StepProof McmcProof P_Samplers P_Mcmc P_Works.
Import ListNotations.
Open Scope R_scope.
Notation length := List.length.

(** ** test_forward.py *)

(** test_operator_forward and test_operator_gradg (23-34) for both operators and
    both settings: whatever the parameters, one prediction per datum; whatever
    the predictions, one gradient entry per parameter *)
Theorem C54_forward : forall lib junk inv P d s setting L B J_min dirs spin a b f,
  let p := wparams L B J_min dirs spin in let n := (L * (2 * L - 1))%nat in let m := length (d_val d) in
  good_library lib p n a b -> (forall A, s <> SMat A) ->
  (SWTO_init lib junk inv d s setting L B J_min dirs spin = Ok f \/
   (PIO_init lib junk inv P d s setting L B J_min dirs spin = Ok f /\ m_cols P = n /\ m_rows P = m)) ->
  exists N, fo_nparams f = Some N /\ N = (if String.eqb setting "analysis" then n else a + b)%nat /\ length (d_val (fo_data f)) = m /\
    (forall X, length X = N -> exists preds, fo_forward f X = Ok preds /\ length preds = m) /\
    (forall preds, length preds = m -> exists g, fo_gradg f preds = Ok g /\ length g = N).
Proof.
  intros lib junk inv P d s setting L B J_min dirs spin a b f p n m GL NM E.
  destruct (C45_construction lib junk inv P d s setting L B J_min dirs spin a b GL) as (_ & _ & CN).
  destruct (CN f ltac:(destruct E as [E|[E _]]; auto)) as (ED & _ & _ & EN).
  assert (X0 : exists ms, (let* t := SWT_init lib junk L B J_min dirs spin false in
      Forward_init inv d s setting (Some (swt_transform t)) (Some ms) (Some (choose_nparams setting L t))) = Ok f /\
      adjoint_pair (ms_forward ms) (ms_adjoint ms) n m).
  { destruct E as [E|(E & HC & HR)].
    - eexists. split; [exact E|]. apply C29_adjoint.
    - eexists. split; [exact E|]. rewrite <- HC, <- HR. apply C30_adjoint. }
  destruct X0 as (ms & E0 & (M1 & M2 & _)).
  destruct (operator_shape _ _ _ _ _ _ _ _ _ _ _ a b _ _ GL E0) as (_ & ES & EM & K & t & ET & (A1 & A2 & _) & _).
  destruct (SWT_init lib junk L B J_min dirs spin false) as [t'|] eqn:EI; cbn [rbind] in E0; [|discriminate].
  set (N := choose_nparams setting L t') in *.
  assert (EF := Forward_init_ok _ _ _ _ _ _ _ _ E0). destruct EF as (_ & _ & EF).
  assert (QN : fo_nparams f = Some N) by (rewrite EF; reflexivity).
  assert (QT : swt_transform t' = swt_transform t) by (rewrite EF in ET; cbn [fo_transform] in ET; injection ET as ET1 ET2; unfold swt_transform; rewrite ET1, ET2; reflexivity).
  rewrite QN in EN. injection EN as EN. exists N. split; [exact QN|]. split; [exact EN|]. split; [rewrite ED; reflexivity|].
  assert (SF : shapes_fit f (mkPrior (fun X => Ok 0) (fun X => Ok X)) N m).
  { apply (C17_operator_shapes inv d s setting (swt_transform t') ms N n m f E0 NM eq_refl M1 M2).
    - intros HS. rewrite HS in EN. cbn in EN. rewrite EN, QT. split; assumption.
    - intros HA. rewrite HA in EN. cbn in EN. symmetry. exact EN.
    - intros y Ly. exists y. split; [reflexivity|exact Ly].
    - intros y _. exists 0. reflexivity. }
  destruct SF as (_ & _ & _ & _ & SF1 & SF2 & _). split; [exact SF1|exact SF2].
Qed.
Print Assumptions C54_forward.

(** ** test_proxes.py *)

(** np.matmul(np.eye(n), X) *)
Definition matmul_eye (n : nat) (X : vec) : res vec := np_dot (eye n n) X.
Lemma matmul_eye_id : forall n X, length X = n -> matmul_eye n X = Ok X.
Proof.
  intros n X L. unfold matmul_eye. rewrite np_dot_ok by (rewrite L; reflexivity). rewrite eye_dot by exact L. rewrite <- L, pad_or_cut_id. reflexivity.
Qed.

(** test_L1 (8-24): with the identity for transform, both settings soft-threshold *)
Theorem C54_l1 : forall n setting T p X, L1_init setting (matmul_eye n) (matmul_eye n) (TScal T) = Ok p -> length X = n ->
  (setting = "analysis"%string \/ setting = "synthesis"%string) /\
  exists y, proxf p X = Ok y /\ soft X (p_T p) = Ok y /\ p_T p = TScal T /\ length y = n.
Proof.
  intros n setting T p X E LX. unfold L1_init, known_setting in E.
  destruct (String.eqb_spec setting "analysis") as [->|NA].
  - injection E as <-. split; [auto|]. exists (map (fun x => soft1 x T) X).
    unfold proxf, proxf_analysis. cbn [p_setting p_adj p_fwd p_T String.eqb Ascii.eqb Bool.eqb].
    rewrite matmul_eye_id by exact LX. cbn [rbind]. rewrite soft_scal. cbn [rbind].
    rewrite np_sub_same by (rewrite map_length; reflexivity). cbn [rbind].
    rewrite matmul_eye_id by (rewrite vsub_length; rewrite map_length; auto). cbn [rbind].
    assert (LS : length X = length (map (fun x => soft1 x T) X)) by (rewrite map_length; reflexivity).
    split; [|split; [reflexivity|split; [reflexivity|rewrite map_length; exact LX]]].
    unfold np_add. rewrite np_bin_eq by (rewrite vsub_length; rewrite ?map_length; auto). f_equal.
    clear. induction X as [|x X IH]; [reflexivity|]. cbn. f_equal; [ring|exact IH].
  - destruct (String.eqb_spec setting "synthesis") as [->|NS]; [|discriminate]. injection E as <-. split; [auto|].
    exists (map (fun x => soft1 x T) X). unfold proxf, proxf_synthesis. cbn [p_setting p_T String.eqb Ascii.eqb Bool.eqb].
    rewrite soft_scal. split; [reflexivity|]. split; [reflexivity|]. split; [reflexivity|]. rewrite map_length. exact LX.
Qed.
Print Assumptions C54_l1.

(** test_S2_Wavlets_L1 and test_S2_Wavelets_L1_Power_Weights (27-82): the
    analysis case, marked as an expected failure, fails in the constructor; in
    the synthesis case the regulariser works on an array of map_weights.size
    numbers, whatever is put into the attributes fwd and adj afterwards *)
Theorem C54_s2 : forall fwd adj t L til0 til eta,
  S2_init "analysis" fwd adj (TScal t) L til = Raise NotImplementedError /\
  Power_init "analysis" fwd adj (TScal t) L til0 til eta = Raise NotImplementedError /\
  (forall p, S2_init "synthesis" fwd adj (TScal t) L til = Ok p \/ Power_init "synthesis" fwd adj (TScal t) L til0 til eta = Ok p ->
   forall fwd' adj' X, length X = length (s_weights p) ->
   let p' := mkS2 (mkL1 (p_setting (s_l1 p)) fwd' adj' (p_T (s_l1 p))) (s_weights p) in
   S2_proxf p' X = S2_proxf p X /\ exists y, S2_proxf p' X = Ok y /\ length y = length X).
Proof.
  intros fwd adj t L til0 til eta. split; [reflexivity|]. split; [reflexivity|].
  intros p H fwd' adj' X LX p'.
  assert (Q : p_setting (s_l1 p) = "synthesis"%string /\ maps (S2_proxf p) (length (s_weights p)) (length (s_weights p))).
  { destruct H as [H|H].
    - split; [destruct (S2_init_inv _ _ _ _ _ _ _ H) as (_ & PS & _); exact PS|exact (proj1 (C36_shapes _ _ _ _ _ _ _ H))].
    - split; [destruct (Power_init_inv _ _ _ _ _ _ _ _ _ H) as (b & s & ww & _ & _ & _ & _ & PS & _); exact PS|exact (proj1 (C36_power_shapes _ _ _ _ _ _ _ _ _ H))]. }
  destruct Q as (PS & M).
  assert (Q : S2_proxf p' X = S2_proxf p X).
  { unfold S2_proxf, proxf, p'. cbn [s_l1 p_setting]. rewrite PS. reflexivity. }
  split; [exact Q|]. rewrite Q. destruct (M X LX) as (y & E & Ly). exists y. split; [exact E|]. congruence.
Qed.
Print Assumptions C54_s2.

(** ** test_mcmc.py *)

(** the fixtures forwardop and prox (11-25) can be built in both settings from a
    non-zero number or an array of as many errors as data *)
Definition id_transform : transform := mkTransform IdT_inverse IdT_inverse_adjoint.
Definition id_measurement (n : nat) : measurement := mkMeas (Identity_forward n n) (Identity_adjoint n n).
Theorem C54_fixtures : forall inv data setting t sig, setting = "analysis"%string \/ setting = "synthesis"%string ->
  let n := length data in
  (exists v : R, v <> 0 /\ sig = SPy (RtoC v) false) \/ (exists v, length v = n /\ sig = SVec v false) ->
  (exists f, Forward_init inv (mkData data false) sig setting (Some id_transform) (Some (id_measurement n)) (Some n) = Ok f) /\
  (exists p, L1_init setting IdT_inverse IdT_inverse_adjoint (TScal t) = Ok p).
Proof.
  intros inv data setting t sig HS n Hs.
  assert (K : known_setting setting = true) by (destruct HS as [-> | ->]; reflexivity).
  split; [|unfold L1_init; rewrite K; eauto]. unfold Forward_init.
  assert (B : exists W, build_invcov inv (mkData data false) sig = Ok W).
  { destruct Hs as [(v & NZ & ->)|(v & LV & ->)]; unfold build_invcov, variance; cbn [d_complex d_val andb negb].
    - unfold Reqb. destruct (Req_EM_T (Cmod (RtoC v * RtoC v)%C) 0) as [Z|_]; [|eauto].
      exfalso. apply Cmod_eq_0 in Z. rewrite <- RtoC_mult in Z. apply RtoC_inj in Z. destruct (Rmult_integral _ _ Z); contradiction.
    - rewrite map_length, LV. fold n. rewrite Nat.eqb_refl. eauto. }
  destruct B as (W & ->). cbn [rbind]. rewrite K. eauto.
Qed.
Print Assumptions C54_fixtures.

(** test_algorithms, test_initial_sample, test_initial_sample_failure (44-63):
    without a start point, or with one of as many numbers as parameters, MYULA
    and SKROCK end and PxMALA raises nothing; with any other length each of them
    raises ValueError before anything is stored *)
Theorem C54_mcmc : forall G (R0 : rng G) inv d sig setting t f p q prm delta g fuel,
  let n := length (d_val d) in
  good_rng R0 -> (forall A, sig <> SMat A) -> n_lmda q <> 0 ->
  Forward_init inv d sig setting (Some id_transform) (Some (id_measurement n)) (Some n) = Ok f ->
  L1_init setting IdT_inverse IdT_inverse_adjoint (TScal t) = Ok p ->
  (0 <= p_nsamples prm)%Z -> p_track prm = ["logposterior"; "L2"; "prior"; "chain"]%string ->
  let o := mcmc_ops R0 f (mkPrior (fun X => Ok (L1_prior X)) (proxf p)) q in
  exists s0, new_sampler o prm delta = Ok s0 /\
  (forall start, start = StartNone \/ (exists buf, start = StartArray [n] buf /\ length buf = n) ->
     let total := total_iters (p_nburn prm) (p_ngap prm) (Z.to_nat (p_nsamples prm)) in
     ((exists w', myula_run o prm fuel start (mkWorld s0 g) = (w', Ret tt)) <-> (total <= fuel)%nat) /\
     ((exists w', skrock_run o prm fuel start (mkWorld s0 g) = (w', Ret tt)) <-> (total <= fuel)%nat) /\
     forall tune, exists w', pxmala_run o prm tune fuel start (mkWorld s0 g) = (w', Ret tt) \/
                             pxmala_run o prm tune fuel start (mkWorld s0 g) = (w', NoFuel)) /\
  (forall k buf, k <> n -> length buf = k ->
     (exists w', myula_run o prm fuel (StartArray [k] buf) (mkWorld s0 g) = (w', Exn ValueError) /\ w_inst w' = s0) /\
     (exists w', skrock_run o prm fuel (StartArray [k] buf) (mkWorld s0 g) = (w', Exn ValueError) /\ w_inst w' = s0) /\
     (forall tune, exists w', pxmala_run o prm tune fuel (StartArray [k] buf) (mkWorld s0 g) = (w', Exn ValueError) /\ same_arrays (w_inst w') s0)).
Proof.
  intros G R0 inv d sig setting t f p q prm delta g fuel n GR NM NZ EF EP HN HT o.
  assert (MI : forall k, maps (fun x => Ok x) k k) by (intros k x Lx; eauto).
  assert (QS : p_setting p = setting /\ p_fwd p = IdT_inverse /\ p_adj p = IdT_inverse_adjoint /\ p_T p = TScal t).
  { unfold L1_init in EP. destruct (known_setting setting); [|discriminate]. injection EP as <-. repeat split. }
  destruct QS as (Q1 & Q2 & Q3 & Q4).
  assert (MP : maps (proxf p) n n).
  { intros x Lx. unfold proxf, proxf_synthesis, proxf_analysis. rewrite Q2, Q3, Q4. unfold IdT_inverse, IdT_inverse_adjoint. cbn [rbind].
    rewrite soft_scal. cbn [rbind]. destruct (String.eqb (p_setting p) "synthesis").
    - eexists. split; [reflexivity|]. rewrite map_length. exact Lx.
    - rewrite np_sub_same by (rewrite map_length; reflexivity). cbn [rbind]. unfold np_add.
      assert (LV : length x = length (vsub (map (fun y => soft1 y t) x) x)) by (rewrite vsub_length; rewrite map_length; reflexivity).
      rewrite np_bin_eq by exact LV. eexists. split; [reflexivity|]. rewrite length_map2, <- LV. lia. }
  assert (SF : shapes_fit f (mkPrior (fun X => Ok (L1_prior X)) (proxf p)) n n).
  { destruct (C29_adjoint n n) as (M1 & M2 & _).
    apply (C17_operator_shapes inv d sig setting id_transform (id_measurement n) n n n f EF NM eq_refl M1 M2).
    - intros _. split; apply MI.
    - reflexivity.
    - exact MP.
    - intros x _. eexists. reflexivity. }
  destruct (C44_new_sampler_exists _ _ _ _ _ _ o prm delta HN) as (s0 & ES). exists s0. split; [exact ES|].
  destruct (C44_new_sampler _ _ _ _ _ _ _ _ _ _ ES) as (L1' & L2' & L3' & _ & _ & _ & _ & SZ). rewrite HT in L1', L2', L3'. cbn in L1', L2', L3'.
  assert (EN : p_nsamples prm = Z.of_nat (Z.to_nat (p_nsamples prm))) by lia. split.
  - intros start HST total.
    assert (FT : start_fits start n) by (destruct HST as [-> |(buf & -> & Lb)]; [exact I|split; [reflexivity|exact Lb]]).
    assert (LM : ~ line_array_missing (w_inst (mkWorld s0 g))) by (unfold line_array_missing; cbn; rewrite L1', L2', L3'; intros [H|[H|H]]; discriminate).
    destruct (C01_numerical_runs_end G R0 f _ q prm fuel start (mkWorld s0 g) n n _ GR SF NZ FT SZ EN LM) as (A1 & A2).
    split; [exact A1|]. split; [exact A2|]. intros tune.
    exact (proj2 (C06_numerical_runs_end_iff G R0 f _ q prm tune start (mkWorld s0 g) n n _ GR SF NZ FT SZ EN) fuel).
  - intros k buf NK LB. destruct SF as (FN & _).
    assert (WF : well_formed (StartArray [k] buf)) by (unfold well_formed; cbn; lia).
    destruct (C10_run_rejects G R0 f (mkPrior (fun X => Ok (L1_prior X)) (proxf p)) q prm fuel (StartArray [k] buf) (mkWorld s0 g) n ValueError FN WF) as (A1 & A2 & A3).
    { right. right. exists k, buf. auto. }
    split; [destruct A1 as (w' & A & B & _); exists w'; auto|]. split; [destruct A2 as (w' & A & B & _); exists w'; auto|].
    intros tune. destruct (A3 tune) as (w' & A & B & _). exists w'. auto.
Qed.
Print Assumptions C54_mcmc.

(** the parameters of the fixture mcmcparams (28-30): 506 iterations *)
Example C54_case_mcmc : forall G (R0 : rng G) g fuel, good_rng R0 ->
  let prm := Build_params 100 10 5 0 ["logposterior"; "L2"; "prior"; "chain"]%string in
  let q := mkNum (3 / 100000) 1 5 false in
  exists f p s0, Forward_init (fun A => Ok A) (mkData [RtoC 1; RtoC 2] false) (SPy (RtoC (1 / 10)) false) "analysis" (Some id_transform) (Some (id_measurement 2)) (Some 2%nat) = Ok f /\
    L1_init "analysis" IdT_inverse IdT_inverse_adjoint (TScal 1) = Ok p /\
    let o := mcmc_ops R0 f (mkPrior (fun X => Ok (L1_prior X)) (proxf p)) q in
    new_sampler o prm (1 / 100000) = Ok s0 /\
    ((exists w', myula_run o prm fuel StartNone (mkWorld s0 g) = (w', Ret tt)) <-> (506 <= fuel)%nat) /\
    exists w', skrock_run o prm fuel (StartArray [1%nat] [RtoC 7]) (mkWorld s0 g) = (w', Exn ValueError).
Proof.
  intros G R0 g fuel GR prm q.
  destruct (C54_fixtures (fun A => Ok A) [RtoC 1; RtoC 2] "analysis" 1 (SPy (RtoC (1 / 10)) false)) as ((f & EF) & (p & EP)).
  { left. reflexivity. }
  { left. exists (1 / 10). split; [lra|reflexivity]. }
  destruct (C54_mcmc G R0 (fun A => Ok A) (mkData [RtoC 1; RtoC 2] false) (SPy (RtoC (1 / 10)) false) "analysis" 1 f p q prm (1 / 100000) g fuel GR) as (s0 & ES & H1 & H2); auto.
  { intros A. discriminate. }
  { cbn. lra. }
  { cbn. lia. }
  exists f, p, s0. split; [exact EF|]. split; [exact EP|]. split; [exact ES|]. split.
  - destruct (H1 StartNone (or_introl eq_refl)) as (A & _). change 506%nat with (total_iters (p_nburn prm) (p_ngap prm) (Z.to_nat (p_nsamples prm))). exact A.
  - destruct (H2 1%nat [RtoC 7]) as (_ & (w' & A & _) & _); [cbn; lia|reflexivity|]. exists w'. exact A.
Qed.
