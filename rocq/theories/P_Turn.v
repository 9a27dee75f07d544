(** C73: complex data take MYULA off the reals.  forward.py:81-82 turns the
    weights by exp(-i pi/4) when the data are complex; the samples then move in
    the complex plane while the chain array of a real run keeps real parts. *)
From Coq Require Import List ZArith Lia Bool Reals Lra Psatz String.
From Coquelicot Require Import Coquelicot.
From Verif Require Import PyBase PyBaseFacts CVec Thresh ThreshSpec ThreshProof OpSpec Utils UtilsProof Prior PriorProof Forward
  McmcSpec FwdProof MeasProof Sampler SamplerSpec SamplerFacts SamplerMain Mcmc StepProof P_Samplers P_Mcmc P_Works StableProof P_Stable
  MomentSpec MomentProof P_Moments TurnSpec TurnProof.
Import ListNotations.
Notation length := List.length.
Open Scope R_scope.

(** ** where turned weights come from *)

(** the same values, once of complex and once of real dtype, with the same real errors *)
Theorem C73_turned : forall inv vals sd s set tr ms np, known_setting set = true -> real_errors sd (length vals) s ->
  exists f f0, Forward_init inv (mkData vals true) sd set tr ms np = Ok f /\
    Forward_init inv (mkData vals false) sd set tr ms np = Ok f0 /\
    turned f f0 (length vals) /\ hermitian (fo_invcov f0) (length vals) /\
    is_diagonal (fo_invcov f0) (map RtoC (map (fun a => 1 / a ^ 2) s)).
Proof.
  intros inv vals sd s set tr ms np KS RE.
  destruct (complex_errors_invcov inv (mkData vals true) sd s eq_refl RE) as (W & EW & DW).
  destruct (real_errors_invcov inv (mkData vals false) sd s eq_refl RE) as (W0 & EW0 & DW0).
  unfold Forward_init. rewrite EW, EW0, KS. cbn [rbind]. do 2 eexists. split; [reflexivity|]. split; [reflexivity|].
  assert (LS : length s = length vals) by apply RE.
  assert (HH : hermitian W0 (length vals)).
  { assert (L : length (map (fun a => RtoC (1 / a ^ 2)) s) = length vals) by (rewrite map_length; auto).
    rewrite <- L. apply diagonal_hermitian; [exact DW0|]. intros z Hz. apply in_map_iff in Hz. destruct Hz as (a & <- & _). reflexivity. }
  cbn [fo_invcov]. split; [|split; [exact HH|]].
  2:{ rewrite map_map. exact DW0. }
  destruct DW as (R1 & E1 & H1). destruct DW0 as (R2 & E2 & H2). rewrite map_length in *. rewrite LS in *.
  unfold turned. cbn. repeat (split; [first [reflexivity|assumption]|]). intros i j Hi Hj. rewrite H1, H2 by auto.
  destruct (Nat.eqb i j); [|ring].
  rewrite !(nth_map_in _ _ _ _ 0) by lia.
  assert (T : ((RtoC 1 - Ci) / RtoC (sqrt 2))%C = turn).
  { assert (P := sqrt2_pos). unfold Cdiv. rewrite <- RtoC_inv by lra. unfold Ci, turn. apply C_ext; cbn; ring. }
  rewrite T. apply Cmult_comm.
Qed.
Print Assumptions C73_turned.

(** ** the gradient and one step *)

Theorem C73_gradient : forall f f0 p m X, turned f f0 m -> linear_model f0 p m -> length (d_val (fo_data f0)) = m -> length X = p ->
  exists d g, fo_forward f0 X = Ok d /\ fo_forward f X = Ok d /\ fo_gradg f0 d = Ok g /\ length g = p /\
    fo_gradg f d = Ok (map (fun z => z * turn)%C g).
Proof.
  intros f f0 p m X T LM LD LX. destruct (turned_gradg f f0 p m X T LM LD LX) as (d & g & A & B & _ & D & E & L).
  exists d, g. repeat (split; [assumption|]). rewrite E. f_equal. unfold vscal. apply map_ext. intros; ring.
Qed.
Print Assumptions C73_gradient.

(** from a real sample with a real gradient and a real proximal point *)
Theorem C73_step : forall G (R0 : rng G) f f0 pr q delta X d p g0 gen n m X' gen',
  good_rng R0 -> turned f f0 m -> linear_model f0 n m -> length (d_val (fo_data f0)) = m -> fo_nparams f0 = Some n ->
  n_lmda q <> 0 -> n_complex q = false -> length X = n ->
  fo_forward f0 X = Ok d -> pr_proxf pr X = Ok p -> length p = n -> fo_gradg f0 d = Ok g0 ->
  real_vec X -> real_vec p -> real_vec g0 ->
  (exists gr, fo_gradg f d = Ok gr /\ chain_step R0 f q delta X p gr gen = (Ok X', gen')) ->
  let w := fst (g_randn R0 n gen) in let r := fun (x : vec) i => Re (nth i x (RtoC 0)) in
  length X' = n /\ forall i, (i < n)%nat ->
    Im (nth i X' (RtoC 0)) = delta / sqrt 2 * r g0 i /\
    r X' i = r X i - delta / n_lmda q * (r X i - r p i) - delta / sqrt 2 * r g0 i + sqrt (2 * delta) * nth i w 0.
Proof.
  intros G R0 f f0 pr q delta X d p g0 gen n m X' gen' GR T LM LD EN NZ NC LX Ed Ep Lp Eg RX Rp Rg (gr & Egr & ES) w r.
  destruct (turned_gradg f f0 n m X T LM LD LX) as (d1 & g1 & A & B & _ & D & E & Lg).
  rewrite Ed in A. injection A as <-. rewrite Eg in D. injection D as <-. rewrite Egr in E. injection E as ->.
  assert (EN' : fo_nparams f = Some n) by (destruct T as (_ & _ & _ & _ & E5 & _); congruence).
  destruct (C12_step _ R0 f pr q delta X d p (vscal turn g0) gen n GR EN' NZ LX B Ep Egr Lp ltac:(rewrite vscal_length; auto)) as (gl & _ & _ & -> & S1).
  rewrite ES, NC in S1. unfold noise in S1. cbn [fst snd] in S1. fold w in S1. injection S1 as -> _.
  assert (Lw : length w = n) by (apply GR). clearbody w. clear - LX Lp Lg Lw RX Rp Rg NZ. unfold r. clear r.
  assert (HS := sqrt2_pos). split.
  { rewrite vadd_length; rewrite ?vadd_length; rewrite ?vscal_length, ?vsub_length, ?vscal_length, ?vsub_length, ?map_length; try congruence;
    rewrite ?vscal_length, ?vsub_length; rewrite ?vscal_length, ?vsub_length; congruence. }
  revert X p g0 w LX Lp Lg Lw RX Rp Rg. unfold vadd, vscal, vsub. induction n as [|n IH]; intros [|x X] [|y p] [|g g0] [|u w] LX Lp Lg Lw RX Rp Rg i Hi; cbn in LX, Lp, Lg, Lw; try lia.
  inversion RX as [|? ? Ix RX']; inversion Rp as [|? ? Iy Rp']; inversion Rg as [|? ? Ig Rg']; subst.
  destruct i as [|i].
  - cbn [map map2 nth]. destruct x as (x1 & x2), y as (y1 & y2), g as (g1 & g2). cbn in Ix, Iy, Ig. subst. unfold turn. cbn. split; field; try split; lra.
  - cbn [map map2 nth]. apply (IH X p g0 w); auto; lia.
Qed.
Print Assumptions C73_step.

(** ** the recorded misfit *)

Theorem C73_misfit : forall f f0 pr q n m w X d dr di lp l2 pv lpr l2r pvr,
  turned f f0 m -> linear_model f0 n m -> length (d_val (fo_data f0)) = m -> is_diagonal (fo_invcov f0) (map RtoC w) -> length w = m ->
  real_vec (d_val (fo_data f0)) -> (forall x y, length x = n -> real_vec x -> fo_forward f0 x = Ok y -> real_vec y) ->
  length X = n -> fo_forward f X = Ok d -> fo_forward f (re_part X) = Ok dr -> fo_forward f (im_part X) = Ok di ->
  logpi f pr q X d = Ok (lp, l2, pv) -> logpi f pr q (re_part X) dr = Ok (lpr, l2r, pvr) ->
  Re l2 = Re l2r + rsum (map2 (fun a z => a * Re z ^ 2) w di) / sqrt 2 /\
  Im l2 = - Re l2 /\ Im l2r = - Re l2r.
Proof.
  intros f f0 pr q n m w X d dr di lp l2 pv lpr l2r pvr T LM LD DW Lw RD RM LX Ed Edr Edi EL ELr.
  assert (T' := T). destruct T' as (EV & _ & _ & _ & _ & R1 & E1 & _).
  destruct (linear_model_ops f0 n m LM) as (A & AP & _). assert (LF := adjoint_linear _ _ _ _ AP). destruct AP as (MF & _ & _).
  rewrite (turned_forward f f0 m) in Ed, Edr, Edi by exact T.
  assert (Lr : length (re_part X) = n) by (unfold re_part; rewrite map_length; auto).
  assert (Li : length (im_part X) = n) by (unfold im_part; rewrite map_length; auto).
  assert (Ld := maps_len _ _ _ _ _ MF LX Ed). assert (Ldr := maps_len _ _ _ _ _ MF Lr Edr). assert (Ldi := maps_len _ _ _ _ _ MF Li Edi).
  assert (RR : real_vec (re_part X)) by (apply List.Forall_forall; intros z Hz; apply in_map_iff in Hz; destruct Hz as (? & <- & _); reflexivity).
  assert (RI : real_vec (im_part X)) by (apply List.Forall_forall; intros z Hz; apply in_map_iff in Hz; destruct Hz as (? & <- & _); reflexivity).
  assert (Rdr := RM _ _ Lr RR Edr). assert (Rdi := RM _ _ Li RI Edi).
  assert (SX : X = vadd (re_part X) (vscal Ci (im_part X))).
  { clear. unfold vadd, vscal, re_part, im_part. induction X as [|x X IH]; [reflexivity|]. cbn [map map2]. rewrite <- IH. f_equal. destruct x. apply C_ext; cbn; ring. }
  assert (SD : d = vadd dr (vscal Ci di)).
  { assert (Q := LF _ _ Ci _ _ Lr Li Edr Edi). rewrite <- SX, Ed in Q. injection Q as ->. reflexivity. }
  rewrite (logpi_value f pr q X d m) in EL by congruence. rewrite (logpi_value f pr q (re_part X) dr m) in ELr by congruence.
  destruct (pr_prior pr X) as [p1|]; [|discriminate]. destruct (pr_prior pr (re_part X)) as [p2|]; [|discriminate]. cbn [rbind] in EL, ELr. cbv zeta in EL, ELr.
  injection EL as _ <- _. injection ELr as _ <- _. rewrite EV.
  rewrite !(turned_quadform f f0 m) by (auto; rewrite vsub_length; congruence).
  rewrite !(quadform_diagonal _ (map RtoC w)) by (auto; rewrite map_length, vsub_length; congruence).
  set (D := d_val (fo_data f0)) in *. clearbody D.
  assert (CS : forall x, length x = m -> csum (map2 (fun a z => a * RtoC (Cmod z ^ 2))%C (map RtoC w) x) = RtoC (rsum (map2 (fun a z => a * csq z) w x))).
  { intros x L. rewrite <- L in Lw. clear - Lw. revert w Lw. induction x as [|z x IH]; intros [|a w] L; cbn in L; try lia; [reflexivity|].
    cbn [map map2 csum rsum fold_right]. unfold csum in IH. rewrite (IH w) by lia. rewrite Cmod_sq. fold (rsum (map2 (fun a z => a * csq z) w x)).
    unfold csq. apply C_ext; cbn; ring. }
  rewrite !CS by (rewrite vsub_length; congruence).
  assert (S3 : rsum (map2 (fun a z => a * csq z) w (vsub D d)) =
    rsum (map2 (fun a z => a * csq z) w (vsub D dr)) + rsum (map2 (fun a z => a * Re z ^ 2) w di)).
  { rewrite SD. clear - Lw LD Ldr Ldi RD Rdr Rdi. revert m w D dr di Lw LD Ldr Ldi RD Rdr Rdi. unfold vsub, vadd, vscal.
    induction m as [|m IH]; intros [|a w] [|x D] [|y dr] [|z di] L1 L2 L3 L4 F1 F2 F3; cbn in L1, L2, L3, L4; try lia; [cbn; ring|].
    inversion F1 as [|? ? I1 F1']; inversion F2 as [|? ? I2 F2']; inversion F3 as [|? ? I3 F3']; subst.
    cbn [map map2 rsum fold_right]. specialize (IH w D dr di ltac:(lia) ltac:(lia) ltac:(lia) ltac:(lia) F1' F2' F3'). unfold rsum in IH. rewrite IH.
    destruct x as (x1 & x2), y as (y1 & y2), z as (z1 & z2). cbn in I1, I2, I3. subst. unfold csq, Re. cbn [fst snd Cminus Cplus Copp Cmult Ci]. ring. }
  rewrite S3. unfold turn. assert (HS := sqrt2_pos). unfold Rdiv. cbn. repeat split; ring.
Qed.
Print Assumptions C73_misfit.

(** ** step sizes for which runs approach each other *)

(** the squared distance shrinks by this factor at least *)
Definition turned_rate (lmda delta lo hi : R) : R := 1 - delta * (lo / sqrt 2) * (2 - delta * (/ lmda + sqrt 2 * hi)).

Lemma turned_contracts : forall f f0 pr q n m lo hi delta X Y, turned f f0 m -> convex_problem f0 pr n m lo hi -> 0 < n_lmda q -> 0 <= delta ->
  delta * (/ n_lmda q + sqrt 2 * hi) <= 2 -> length X = n -> length Y = n ->
  nrm2 (vsub (next_mean f pr q delta X) (next_mean f pr q delta Y)) <= turned_rate (n_lmda q) delta lo hi * nrm2 (vsub X Y).
Proof.
  intros f f0 pr q n m lo hi delta X Y T CP Hl Hd HS LX LY.
  assert (CP' := CP). destruct CP' as (EN & LM & HW & LD & (MP & FR) & Lo & Hi & CB).
  assert (SD := turned_steps f f0 pr q n m T LM LD EN MP).
  destruct (proj2 SD X LX) as (d & gr & p & A1 & A2 & A3 & A4 & A5 & A6 & A7 & A8).
  destruct (proj2 SD Y LY) as (d' & gr' & p' & B1 & B2 & B3 & B4 & B5 & B6 & B7 & B8).
  destruct (turned_gradg f f0 n m X T LM LD LX) as (e & g & G1 & G2 & _ & G3 & G4 & Lg).
  destruct (turned_gradg f f0 n m Y T LM LD LY) as (e' & g' & K1 & K2 & _ & K3 & K4 & Lg').
  rewrite A1 in G2. injection G2 as <-. rewrite A2 in G4. injection G4 as ->. rewrite B1 in K2. injection K2 as <-. rewrite B2 in K4. injection K4 as ->.
  destruct (gradg_cocoercive f0 n m lo hi X Y d d' g g' LM HW LD Lo Hi CB LX LY G1 K1 G3 K3) as (C1 & C2). cbn zeta in C1, C2.
  destruct (gradg_difference f0 n m X Y d d' g g' LM HW LD LX LY G1 K1 G3 K3) as (_ & _ & ED & Lfd & AD).
  assert (LXY : length (vsub X Y) = n) by (rewrite vsub_length; congruence).
  assert (IM : Im (cdot (vsub g g') (vsub X Y)) = 0).
  { rewrite (AD _ _ LXY ED). destruct HW as (W1 & W2 & W3). assert (HQ := quadform_real (fo_invcov f0) (vsub d d')).
    rewrite Lfd in HQ. specialize (HQ (conj W1 (conj W2 W3))). rewrite <- cdot_matvec_quadform in HQ by congruence.
    rewrite <- (cdot_conj (vsub d d')). destruct (cdot (vsub d d') (matvec (fo_invcov f0) (vsub d d'))). cbn in *. lra. }
  unfold next_mean. rewrite A8, B8. unfold langevin_drift.
  set (w := vzero n). assert (Lw : length w = n) by apply repeat_length.
  assert (L1 : length (vadd X (vscal (RtoC delta) (langevin_drift (n_lmda q) X p (vscal turn g)))) = n).
  { rewrite vadd_length; [auto|]. rewrite vscal_length, drift_length; congruence. }
  assert (L2 : length (vadd Y (vscal (RtoC delta) (langevin_drift (n_lmda q) Y p' (vscal turn g')))) = n).
  { rewrite vadd_length; [auto|]. rewrite vscal_length, drift_length; congruence. }
  unfold langevin_drift in L1, L2.
  assert (E := step_difference (n_lmda q) delta (RtoC 0) X Y p p' (vscal turn g) (vscal turn g') w).
  assert (Z : forall x y z : vec, length x = n -> length y = n -> length z = n -> vsub (vadd x z) (vadd y z) = vsub x y).
  { intros x y z E1 E2 E3. assert (F1 : length y = length x) by congruence. assert (F2 : length z = length x) by congruence. clear - F1 F2. revert y z F1 F2. unfold vsub, vadd. induction x as [|a x IH]; intros [|b y] [|c z]; cbn; intros; try lia; auto.
    f_equal; [ring|apply IH; lia]. }
  rewrite Z in E by (rewrite ?vscal_length; auto). rewrite E by congruence.
  assert (K : forall a b : vec, length a = n -> length b = n -> length (vsub a b) = n) by (intros; rewrite vsub_length; congruence).
  assert (EG : vsub (vscal turn g) (vscal turn g') = vscal turn (vsub g g')).
  { assert (LL : length g' = length g) by congruence. clear - LL. revert g' LL. unfold vsub, vscal. induction g as [|a g IH]; intros [|b g']; cbn; intros; try lia; auto. f_equal; [ring|apply IH; lia]. }
  assert (P := sqrt2_pos). assert (H2 := half_sqrt2).
  assert (RC : Re (cdot (vscal turn (vsub g g')) (vsub X Y)) = Re (cdot (vsub g g') (vsub X Y)) / sqrt 2).
  { rewrite cdot_vscal_l. destruct (cdot (vsub g g') (vsub X Y)) as (a & b). cbn in IM. subst b. unfold turn. cbn. unfold Rdiv. ring. }
  assert (NC : nrm2 (vscal turn (vsub g g')) = nrm2 (vsub g g')).
  { rewrite nrm2_vscal, Cmod_sq. unfold turn. cbn [fst snd]. replace ((- / sqrt 2) ^ 2) with ((/ sqrt 2) ^ 2) by ring. rewrite H2. lra. }
  unfold turned_rate. rewrite EG. apply contraction; auto.
  - apply Rmult_lt_0_compat; auto.
  - unfold Rdiv. apply Rmult_le_pos; [auto|]. left. apply Rinv_0_lt_compat. auto.
  - rewrite !K; auto.
  - rewrite vscal_length, !K; auto.
  - rewrite NC, RC. replace (sqrt 2 * hi * (Re (cdot (vsub g g') (vsub X Y)) / sqrt 2)) with (hi * Re (cdot (vsub g g') (vsub X Y))) by (field; lra). exact C1.
  - rewrite RC. unfold Rdiv. assert (0 < / sqrt 2) by (apply Rinv_0_lt_compat; auto).
    replace (lo * / sqrt 2 * nrm2 (vsub X Y)) with (lo * nrm2 (vsub X Y) * / sqrt 2) by ring. apply Rmult_le_compat_r; lra.
Qed.

Theorem C73_rate : forall lmda delta lo hi, 0 < lmda -> 0 <= lo <= hi -> 0 <= delta -> delta * (/ lmda + sqrt 2 * hi) <= 2 ->
  0 <= turned_rate lmda delta lo hi <= 1 /\
  (0 < lo -> 0 < delta -> delta * (/ lmda + sqrt 2 * hi) < 2 -> turned_rate lmda delta lo hi < 1).
Proof.
  intros lmda delta lo hi Hl (H0 & H1) Hd HS. assert (P := sqrt2_pos). assert (S2 : sqrt 2 * sqrt 2 = 2) by (apply sqrt_sqrt; lra).
  assert (I : 0 < / sqrt 2) by (apply Rinv_0_lt_compat; auto).
  assert (LE : lo / sqrt 2 <= sqrt 2 * hi).
  { unfold Rdiv. apply Rle_trans with (hi * / sqrt 2); [apply Rmult_le_compat_r; lra|]. assert (0 <= hi * / sqrt 2) by (apply Rmult_le_pos; lra). assert (Q := f_equal (Rmult hi) two_inv_sqrt2). cbn beta in Q. lra. }
  assert (PL : 0 <= lo / sqrt 2) by (unfold Rdiv; apply Rmult_le_pos; lra).
  destruct (C56_rate lmda delta (lo / sqrt 2) (sqrt 2 * hi) Hl ltac:(lra) Hd HS) as (A & B & _). unfold rate, turned_rate in *.
  split; [exact A|]. intros L D Q. apply B; auto. unfold Rdiv. apply Rmult_lt_0_compat; auto.
Qed.
Print Assumptions C73_rate.

(** rows of two runs that read the same tape *)
Theorem C73_runs : forall R0 f f0 pr q prm n m lo hi N K j fuel1 fuel2 sh1 sh2 X Y s1 s2 l,
  let delta := i_delta s1 in
  turned f f0 m -> convex_problem f0 pr n m lo hi -> lo <= hi -> 0 < n_lmda q -> 0 <= delta -> delta * (/ n_lmda q + sqrt 2 * hi) <= 2 ->
  i_delta s2 = delta -> tape_runs R0 f pr q prm fuel1 sh1 X s1 n N K j -> tape_runs R0 f pr q prm fuel2 sh2 Y s2 n N K j ->
  length l = K -> (forall w, In w l -> length w = n) ->
  nrm2 (vsub (row_of (myula_run (mcmc_ops R0 f pr q) prm fuel1 (StartArray sh1 X)) s1 j [] l)
             (row_of (myula_run (mcmc_ops R0 f pr q) prm fuel2 (StartArray sh2 Y)) s2 j [] l)) <=
  turned_rate (n_lmda q) delta lo hi ^ steps_to prm j * nrm2 (vsub X Y).
Proof.
  intros R0 f f0 pr q prm n m lo hi N K j fuel1 fuel2 sh1 sh2 X Y s1 s2 l delta T CP LH Hl Hd HS ED TR1 TR2 LL LW.
  assert (CP' := CP). destruct CP' as (EN & LM & HW & LD & (MP & FR) & Lo & Hi & CB).
  assert (SD := turned_steps f f0 pr q n m T LM LD EN MP). assert (NZ : n_lmda q <> 0) by lra.
  destruct TR1 as (GR & RT & SZ1 & ENs & NC1 & Hj & HK & ER1). destruct TR2 as (_ & _ & SZ2 & _ & NC2 & _ & _ & ER2).
  destruct (ER1 l LL LW) as (w1 & E1). destruct (ER2 l LL LW) as (w2 & E2).
  destruct (run_row_gen R0 f pr q prm n N fuel1 sh1 X s1 l j w1 GR RT SD NZ SZ1 ENs NC1 Hj LW ltac:(rewrite LL; exact HK) E1) as (LX & L1 & RW1).
  destruct (run_row_gen R0 f pr q prm n N fuel2 sh2 Y s2 l j w2 GR RT SD NZ SZ2 ENs NC2 Hj LW ltac:(rewrite LL; exact HK) E2) as (LY & L2 & RW2).
  rewrite RW1, RW2, ED. rewrite ED in L2. fold delta in L1. fold delta. eapply Rle_trans; [apply st_closer; fold delta; congruence|].
  fold (steps_to prm j). rewrite <- LL in HK. fold (steps_to prm j) in HK.
  destruct (C73_rate (n_lmda q) delta lo hi Hl ltac:(lra) Hd HS) as ((R1 & R2) & _).
  assert (LA : forall Z, length Z = n -> length (next_mean f pr q delta Z) = n) by (intros; eapply next_length_gen; eauto).
  clear RW1 RW2 L1 L2 E1 E2 ER1 ER2 LL. revert X Y l LX LY LW HK. induction (steps_to prm j) as [|k IH]; intros X Y l LX LY LW HK; cbn [it pow]; [lra|].
  set (b := n_complex q) in *.
  assert (El : l = firstn (per_step b) l ++ skipn (per_step b) l) by (symmetry; apply firstn_skipn).
  assert (TT : tape_of n (per_step b) (firstn (per_step b) l)).
  { split; [rewrite firstn_length; lia|intros w Hw; apply LW; rewrite El; apply in_or_app; auto]. }
  assert (NN : noise_of b l = noise_of b (firstn (per_step b) l)) by (rewrite El at 1; apply noise_of_app; rewrite firstn_length; lia).
  assert (Ln : length (noise_of b l) = n) by (rewrite NN; apply (noise_tape R0 b n _ [] RT TT)).
  set (X1 := vadd (next_mean f pr q delta X) _). set (Y1 := vadd (next_mean f pr q delta Y) _).
  assert (LX1 : length X1 = n) by (unfold X1; rewrite vadd_length; rewrite ?vscal_length, ?LA; auto).
  assert (LY1 : length Y1 = n) by (unfold Y1; rewrite vadd_length; rewrite ?vscal_length, ?LA; auto).
  assert (EZ : vsub X1 Y1 = vsub (next_mean f pr q delta X) (next_mean f pr q delta Y)).
  { unfold X1, Y1. assert (Q1 := LA X LX). assert (Q2 := LA Y LY). assert (Q3 : length (vscal (RtoC (sqrt (2 * delta))) (noise_of b l)) = n) by (rewrite vscal_length; auto).
    revert Q1 Q2 Q3. generalize (next_mean f pr q delta X), (next_mean f pr q delta Y), (vscal (RtoC (sqrt (2 * delta))) (noise_of b l)). clear.
    intros x y z E1 E2 E3. assert (F1 : length y = length x) by congruence. assert (F2 : length z = length x) by congruence. clear - F1 F2. revert y z F1 F2. unfold vsub, vadd. induction x as [|a x IH]; intros [|b y] [|c z]; cbn; intros; try lia; auto.
    f_equal; [ring|apply IH; lia]. }
  eapply Rle_trans; [apply (IH X1 Y1 (skipn (per_step b) l) LX1 LY1)|].
  - intros w Hw. apply LW. rewrite El. apply in_or_app; auto.
  - rewrite skipn_length. lia.
  - rewrite EZ. assert (C1 := turned_contracts f f0 pr q n m lo hi delta X Y T CP Hl Hd HS LX LY).
    assert (0 <= turned_rate (n_lmda q) delta lo hi ^ k) by (apply pow_le; auto).
    eapply Rle_trans; [apply Rmult_le_compat_l; [assumption|exact C1]|]. apply Req_le. ring.
Qed.
Print Assumptions C73_runs.

(** ** no regulariser and isotropic data: the exact mean square of the rows *)

Lemma turned_mean : forall f f0 pr q n m w delta xs X, turned f f0 m -> convex_problem f0 pr n m w w ->
  (forall Z, length Z = n -> pr_proxf pr Z = Ok Z) -> length xs = n -> gradlogpi f pr q xs None = Ok (vzero n) -> length X = n ->
  vsub (next_mean f pr q delta X) xs = vscal (turned_factor delta w) (vsub X xs).
Proof.
  intros f f0 pr q n m w delta xs X T CP NP Lx Ex LX.
  assert (CP' := CP). destruct CP' as (EN & LM & HW & LD & (MP & FR) & Lo & Hi & CB).
  assert (SD := turned_steps f f0 pr q n m T LM LD EN MP).
  destruct (proj2 SD X LX) as (d & gr & p & A1 & A2 & A3 & A4 & A5 & A6 & A7 & A8).
  destruct (proj2 SD xs Lx) as (d' & gr' & p' & B1 & B2 & B3 & B4 & B5 & B6 & B7 & B8).
  destruct (turned_gradg f f0 n m X T LM LD LX) as (e & g & G1 & G2 & _ & G3 & G4 & Lg).
  destruct (turned_gradg f f0 n m xs T LM LD Lx) as (e' & g' & K1 & K2 & _ & K3 & K4 & Lg').
  rewrite A1 in G2. injection G2 as <-. rewrite A2 in G4. injection G4 as ->. rewrite B1 in K2. injection K2 as <-. rewrite B2 in K4. injection K4 as ->.
  rewrite (NP X LX) in A3. injection A3 as <-. rewrite (NP xs Lx) in B3. injection B3 as <-.
  rewrite Ex in B6. injection B6 as B6. rewrite <- B6 in B8. clear B6.
  assert (ZG : g' = vzero n).
  { assert (P := sqrt2_pos). assert (I : 0 < / sqrt 2) by (apply Rinv_0_lt_compat; auto). clear - B8 Lg' Lx I. unfold langevin_drift, vzero, vsub, vscal in *. revert xs g' Lg' Lx B8.
    induction n as [|n IH]; intros [|y xs] [|g g'] Lg Lx B8; cbn in Lg, Lx; try lia; [reflexivity|].
    cbn [map map2 repeat] in *. assert (F0 := f_equal (hd (RtoC 0)) B8). assert (F1 := f_equal (@tl C) B8). cbn [hd tl] in F0, F1.
    f_equal; [|apply (IH xs); auto; lia].
    assert (Q1 := f_equal fst F0). assert (Q2 := f_equal snd F0). destruct y as (y1 & y2), g as (g1 & g2). unfold turn in *. cbn in Q1, Q2.
    set (h := / sqrt 2) in *. assert (h * (g1 + g2) = 0) by lra. assert (h * (g2 - g1) = 0) by lra.
    assert (g1 + g2 = 0) by (apply Rmult_integral in H; destruct H; lra). assert (g2 - g1 = 0) by (apply Rmult_integral in H0; destruct H0; lra).
    apply C_ext; cbn; lra. }
  assert (E0 : gradlogpi f0 pr q xs None = Ok (vzero n)).
  { rewrite (gradlogpi_value f0 pr q xs d' xs g'); auto; [|congruence]. f_equal. rewrite ZG. clear - Lx. subst n. unfold langevin_drift, vzero, vsub, vscal.
    induction xs as [|y xs IH]; [reflexivity|]. cbn [map map2 repeat List.length]. f_equal; [destruct y; apply C_ext; cbn; ring|exact IH]. }
  assert (IS := isotropic_mean f0 pr q n m w 1 xs X CP NP Lx E0 LX).
  destruct (problem_parts f0 pr q n m w w X CP LX) as (d2 & gr2 & p2 & C1 & C2 & C3 & C4 & C5 & C6 & C7 & C8).
  rewrite G1 in C1. injection C1 as <-. rewrite G3 in C2. injection C2 as <-. rewrite (NP X LX) in C3. injection C3 as <-.
  unfold next_mean in *. rewrite A8. rewrite C8 in IS. clear - IS LX Lx Lg. unfold langevin_drift, vadd, vscal, vsub in *.
  revert X xs g LX Lx Lg IS. induction n as [|n IH]; intros [|x X] [|y xs] [|g gs] LX Lx Lg IS; cbn in LX, Lx, Lg; try lia; [reflexivity|].
  cbn [map map2] in *. assert (F0 := f_equal (hd (RtoC 0)) IS). assert (F1 := f_equal (@tl C) IS). cbn [hd tl] in F0, F1.
  f_equal; [|apply IH; auto; lia].
  assert (Q1 := f_equal fst F0). assert (Q2 := f_equal snd F0). destruct x as (x1 & x2), y as (y1 & y2), g as (g1 & g2). cbn in Q1, Q2.
  assert (W1 : g1 = w * (x1 - y1)) by lra. assert (W2 : g2 = w * (x2 - y2)) by lra. subst. unfold turned_factor, turn. apply C_ext; cbn; ring.
Qed.

Theorem C73_exact : forall R0 f f0 pr q prm fuel sh X s0 n m N K j w S v xs,
  let delta := i_delta s0 in let a := turned_factor delta w in let k := steps_to prm j in
  let run := myula_run (mcmc_ops R0 f pr q) prm fuel (StartArray sh X) in
  turned f f0 m -> convex_problem f0 pr n m w w -> (forall Z, length Z = n -> pr_proxf pr Z = Ok Z) ->
  n_lmda q <> 0 -> n_complex q = false -> 0 <= delta ->
  white S n v -> tape_runs R0 f pr q prm fuel sh X s0 n N K j -> length xs = n -> gradlogpi f pr q xs None = Ok (vzero n) ->
  mean_sq S K run s0 j (re_part xs) =
    nrm2 (re_part (vscal (cpow a k) (vsub X xs))) + 2 * delta * (v * INR n) * re_geom a k.
Proof.
  intros R0 f f0 pr q prm fuel sh X s0 n m N K j w S v xs delta a k run T CP NP NZ NC Hd W TR Lx Ex.
  assert (CP' := CP). destruct CP' as (EN & LM & HW & LD & (MP & FR) & Lo & Hi & CB).
  assert (SD := turned_steps f f0 pr q n m T LM LD EN MP).
  assert (LX := start_length_gen _ _ _ _ _ _ _ _ _ _ _ _ _ _ _ SD NZ W TR).
  assert (LA : forall Z, length Z = n -> length (next_mean f pr q delta Z) = n) by (intros; eapply next_length_gen; eauto).
  unfold mean_sq, run. rewrite (row_expect_gen R0 f pr q prm fuel sh X s0 n N K j S v (fun z => nrm2 (vsub z (re_part xs))) SD NZ W TR).
  fold delta. assert (HK : (per_step (n_complex q) * k <= K)%nat) by apply TR. rewrite NC in *. cbn [per_step] in HK. rewrite Nat.mul_1_l in HK.
  assert (Ec : sqrt (2 * delta) ^ 2 = 2 * delta) by (apply pow2_sqrt; lra).
  assert (H := re_second (next_mean f pr q delta) (sqrt (2 * delta)) S n v a xs W Lx LA
    (fun Z LZ => turned_mean f f0 pr q n m w delta xs Z T CP NP Lx Ex LZ) k K X LX HK). rewrite Ec in H. rewrite <- H.
  apply (expect_ext S n); [intros; apply W; auto|]. intros l (L & TT). f_equal. fold k.
  assert (LI : length (it (next_mean f pr q delta) (sqrt (2 * delta)) false k X l) = n).
  { apply it_length; auto. cbn [per_step]. lia. }
  revert LI. generalize (it (next_mean f pr q delta) (sqrt (2 * delta)) false k X l). clear - Lx. intros z Lz. unfold st, re_part, vsub.
  revert z xs Lz Lx. induction n as [|n IH]; intros [|x z] [|y xs] Lz Lx; cbn in Lz, Lx; try lia; [reflexivity|].
  cbn [map map2]. f_equal; [|apply IH; lia]. destruct x, y. apply C_ext; cbn; ring.
Qed.
Print Assumptions C73_exact.

(** what the mean square settles at; with real data it is m2 / w / (1 - t / 2) (C60_exact_limit) *)
Theorem C73_exact_limit : forall w delta m2 D, 0 < w -> 0 < delta -> delta * w < sqrt 2 -> let t := delta * w in let a := turned_factor delta w in
  is_lim_seq (fun k => nrm2 (re_part (vscal (cpow a k) D)) + 2 * delta * m2 * re_geom a k)
    (m2 / w * (1 / (sqrt 2 - t) + sqrt 2 / (4 - 2 * sqrt 2 * t + t ^ 2))).
Proof.
  intros w delta m2 D Hw Hd HS t a. assert (P := sqrt2_pos). assert (S2 : sqrt 2 * sqrt 2 = 2) by (apply sqrt_sqrt; lra).
  assert (Ht : 0 < t) by (apply Rmult_lt_0_compat; auto). fold t in HS.
  assert (Q : csq a = 1 - t * (sqrt 2 - t)) by apply turned_factor_csq.
  assert (PT : 0 < t * (sqrt 2 - t)) by (apply Rmult_lt_0_compat; lra).
  assert (LG := re_geom_limit a ltac:(lra)). cbn zeta in LG. destruct (turned_factor_b delta w) as (B1 & B2). fold a in B1, B2. fold t in B1, B2.
  rewrite B1, B2, Q in LG. assert (PD : 0 < 4 - 2 * sqrt 2 * t + t ^ 2) by (assert (0 <= (sqrt 2 - t) ^ 2) by apply pow2_ge_0; nra).
  replace (m2 / w * (1 / (sqrt 2 - t) + sqrt 2 / (4 - 2 * sqrt 2 * t + t ^ 2)))
    with (0 + 2 * delta * m2 * ((/ (1 - (1 - t * (sqrt 2 - t))) + sqrt 2 * t / (t ^ 2 * (4 - 2 * sqrt 2 * t + t ^ 2))) / 2)).
  2:{ replace (1 - (1 - t * (sqrt 2 - t))) with (t * (sqrt 2 - t)) by ring.
      replace (2 * delta * m2) with (2 * m2 / w * t) by (unfold t; field; lra). field. repeat split; lra. }
  apply is_lim_seq_plus'; [|apply is_lim_seq_mult'; [apply is_lim_seq_const|exact LG]].
  apply (is_lim_seq_le_le (fun _ => 0) _ (fun k => csq a ^ k * nrm2 D)).
  - intros k. split; [apply nrm2_nonneg|]. rewrite <- csq_cpow. generalize (cpow a k). intros z. clear. unfold re_part, vscal.
    induction D as [|x D IH]; [cbn [map]; rewrite nrm2_nil; lra|]. cbn [map]. rewrite !nrm2_cons, Rmult_plus_distr_l. apply Rplus_le_compat; [|exact IH].
    destruct z as (z1 & z2), x as (x1 & x2). unfold csq, Re. cbn [fst snd Cmult RtoC]. assert (H := pow2_ge_0 (z1 * x2 + z2 * x1)). nra.
  - apply is_lim_seq_const.
  - replace (Finite 0) with (Finite (0 * nrm2 D)) by (f_equal; ring). apply is_lim_seq_mult'; [|apply is_lim_seq_const].
    apply is_lim_seq_geom. rewrite Rabs_pos_eq by (apply csq_nonneg). lra.
Qed.
Print Assumptions C73_exact_limit.

(** the samples spread more than those of real data with the same weights, already for small steps *)
Theorem C73_wider : forall t, 0 <= t < sqrt 2 ->
  1 / (1 - t / 2) < 1 / (sqrt 2 - t) + sqrt 2 / (4 - 2 * sqrt 2 * t + t ^ 2) /\
  (t = 0 -> 1 / (sqrt 2 - t) + sqrt 2 / (4 - 2 * sqrt 2 * t + t ^ 2) = 3 / (2 * sqrt 2)).
Proof.
  intros t (H0 & H1). assert (P := sqrt2_pos). assert (S2 : sqrt 2 * sqrt 2 = 2) by (apply sqrt_sqrt; lra).
  assert (U : sqrt 2 < 3 / 2) by nra. assert (V : 7 / 5 < sqrt 2) by nra.
  set (s := sqrt 2) in *. assert (PD : 0 < 4 - 2 * s * t + t ^ 2) by (assert (0 <= (s - t) ^ 2) by apply pow2_ge_0; nra).
  split.
  - apply Rminus_gt_0_lt.
    replace (1 / (s - t) + s / (4 - 2 * s * t + t ^ 2) - 1 / (1 - t / 2))
      with (((4 - 2 * s * t + t ^ 2) * (2 - t) + s * (s - t) * (2 - t) - 2 * (s - t) * (4 - 2 * s * t + t ^ 2)) / ((s - t) * (4 - 2 * s * t + t ^ 2) * (2 - t)))
      by (field; repeat split; lra).
    apply Rdiv_lt_0_compat; [|repeat apply Rmult_lt_0_compat; lra].
    assert (E : (4 - 2 * s * t + t ^ 2) * (2 - t) + s * (s - t) * (2 - t) - 2 * (s - t) * (4 - 2 * s * t + t ^ 2) =
      8 + 2 * (s * s) - 8 * s + t * (4 - 6 * s + 3 * (s * s)) + t ^ 2 * (2 - 3 * s) + t ^ 3) by ring.
    rewrite E, S2. nra.
  - intros ->. apply Rmult_eq_reg_l with (s * s * s); [|nra]. field_simplify; try lra. nra.
Qed.
Print Assumptions C73_wider.

(** ** steps that are too long *)

Theorem C73_grows : forall w delta m2, 0 < m2 -> 0 < delta -> sqrt 2 <= delta * w -> let a := turned_factor delta w in
  forall M, exists k0, forall k, (k0 <= k)%nat -> M < 2 * delta * m2 * re_geom a k.
Proof.
  intros w delta m2 Hm Hd HS a M. assert (P := sqrt2_pos). assert (I : 0 < / sqrt 2) by (apply Rinv_0_lt_compat; auto).
  assert (Q := turned_factor_csq delta w). cbn zeta in Q. fold a in Q.
  assert (QT : 0 <= delta * w * (delta * w - sqrt 2)) by (apply Rmult_le_pos; lra).
  assert (NA : snd a <> 0).
  { unfold a, turned_factor, turn. cbn. assert (0 < delta * w * / sqrt 2) by (apply Rmult_lt_0_compat; lra). lra. }
  destruct (re_geom_grows a ltac:(lra) NA) as (c & C0 & CG).
  assert (PC : 0 < 2 * delta * m2 * c) by (repeat apply Rmult_lt_0_compat; lra).
  destruct (archimed_cor1 (2 * delta * m2 * c / (Rabs M + 1))) as (k1 & K1 & K2).
  { apply Rdiv_lt_0_compat; [exact PC|]. assert (A := Rabs_pos M). lra. }
  exists (S k1). intros k Hk. destruct k as [|k]; [lia|]. assert (A := Rabs_pos M). assert (B := Rle_abs M).
  apply Rlt_le_trans with (2 * delta * m2 * (c * INR k)).
  - assert (KP : 0 < INR k1) by (apply lt_0_INR; lia).
    assert (K3 : Rabs M + 1 < 2 * delta * m2 * c * INR k1).
    { apply Rmult_lt_compat_r with (r := (Rabs M + 1) * INR k1) in K1; [|apply Rmult_lt_0_compat; lra].
      replace (/ INR k1 * ((Rabs M + 1) * INR k1)) with (Rabs M + 1) in K1 by (field; lra).
      replace (2 * delta * m2 * c / (Rabs M + 1) * ((Rabs M + 1) * INR k1)) with (2 * delta * m2 * c * INR k1) in K1 by (field; lra). exact K1. }
    assert (INR k1 <= INR k) by (apply le_INR; lia). assert (2 * delta * m2 * c * INR k1 <= 2 * delta * m2 * c * INR k) by (apply Rmult_le_compat_l; lra). lra.
  - assert (0 < 2 * delta * m2) by (repeat apply Rmult_lt_0_compat; lra). apply Rmult_le_compat_l; [lra|]. apply CG.
Qed.
Print Assumptions C73_grows.

(** ** such runs exist *)

Theorem C73_runs_exist : forall f f0 pr q prm n m lo hi delta fuel X N K j,
  turned f f0 m -> convex_problem f0 pr n m lo hi -> 0 < n_lmda q -> (forall x, length x = n -> exists r, pr_prior pr x = Ok r) -> length X = n ->
  p_nsamples prm = Z.of_nat N -> p_track prm = ["logposterior"; "L2"; "prior"; "chain"]%string ->
  (total_iters (p_nburn prm) (p_ngap prm) N <= fuel)%nat -> (j < N)%nat ->
  (per_step (n_complex q) * steps_to prm j <= K)%nat ->
  exists s0, new_sampler (mcmc_ops tape_rng f pr q) prm delta = Ok s0 /\ i_delta s0 = delta /\
    tape_runs tape_rng f pr q prm fuel [n] X s0 n N K j.
Proof.
  intros f f0 pr q prm n m lo hi delta fuel X N K j T CP Hl PT LX EN ET HF Hj HK.
  assert (CP' := CP). destruct CP' as (ENP & LM & HW & LD & (MP & FR) & Lo & Hi & CB).
  assert (SF : shapes_fit f pr n m).
  { assert (T' := T). destruct T' as (EV & _ & _ & _ & EP & R1 & E1 & _).
    destruct (linear_model_ops f n m (turned_linear f f0 n m T LM)) as (A & (MF & MA & _) & EG).
    split; [congruence|]. split; [congruence|]. split; [auto|]. split; [auto|]. split; [auto|]. split; [|split; auto].
    intros x Lx. rewrite EG, np_sub_same by congruence. cbn [rbind].
    rewrite np_dot_ok by (rewrite vsub_length; congruence). cbn [rbind]. apply MA. rewrite matvec_length; auto. }
  assert (GR : good_rng tape_rng).
  { intros k g. cbn. rewrite repeat_length. split; [|reflexivity]. rewrite firstn_length, app_length, repeat_length. lia. }
  assert (RT : reads_tape tape_rng n).
  { intros w g Lw. cbn. rewrite firstn_app, Lw, Nat.sub_diag, <- Lw, firstn_all. cbn. rewrite app_nil_r. reflexivity. }
  destruct (C44_new_sampler_exists _ _ _ _ _ _ (mcmc_ops tape_rng f pr q) prm delta ltac:(lia)) as (s0 & E0). exists s0. split; [exact E0|].
  destruct (C44_new_sampler _ _ _ _ _ _ (mcmc_ops tape_rng f pr q) prm delta s0 E0) as (K1 & K2 & K3 & K4 & K5 & K6 & K7 & SZ).
  assert (EZ : Z.to_nat (p_nsamples prm) = N) by lia. rewrite EZ in *. rewrite ET in K1, K2, K3, K5. cbn in K1, K2, K3, K5.
  split; [auto|]. split; [exact GR|]. split; [exact RT|]. split; [exact SZ|]. split; [exact EN|].
  split; [rewrite K5; discriminate|]. split; [exact Hj|]. split; [exact HK|]. intros l _ _.
  assert (NM : ~ line_array_missing (w_inst (mkWorld s0 l))).
  { unfold line_array_missing. cbn [w_inst]. rewrite K1, K2, K3. intros [H|[H|H]]; discriminate. }
  destruct (C01_numerical_runs_end _ tape_rng f pr q prm fuel (StartArray [n] X) (mkWorld s0 l) n m N GR SF ltac:(lra)
    (conj eq_refl LX) SZ EN NM) as ((_ & A) & _). exact (A HF).
Qed.
Print Assumptions C73_runs_exist.

(** ** a scalar problem: one datum 1 of complex dtype, error 1 *)

Definition turned_fwd : forward_op :=
  mkFwd (mkData [RtoC 1] true) (scaled_identity 1 turn) "analysis" None (Some id_meas) (Some 1%nat).
Lemma turned_fwd_turned : turned turned_fwd (weighted_fwd 1) 1.
Proof.
  unfold turned. cbn. repeat (split; [reflexivity|]). intros [|i] [|j] Hi Hj; try lia. cbn. apply C_ext; unfold turn; cbn; ring.
Qed.
(** it is what the constructor builds *)
Lemma turned_fwd_built : forall inv, exists f, Forward_init inv (mkData [RtoC 1] true) (SPy (RtoC 1) false) "analysis" None (Some id_meas) (Some 1%nat) = Ok f /\
  fo_data f = fo_data turned_fwd /\ m_ent (fo_invcov f) 0 0 = m_ent (fo_invcov turned_fwd) 0 0.
Proof.
  intros inv. destruct (C73_turned inv [RtoC 1] (SPy (RtoC 1) false) [1] "analysis"%string None (Some id_meas) (Some 1%nat) eq_refl) as (f & f0 & E & _ & T & _ & D).
  { split; [reflexivity|]. split; [intros a [<-|[]]; lra|]. left. exists 1. split; [lra|]. auto. }
  exists f. split; [exact E|]. split.
  - unfold Forward_init in E. destruct (build_invcov _ _ _) as [W|]; [|discriminate]. cbn in E. injection E as <-. reflexivity.
  - destruct T as (_ & _ & _ & _ & _ & _ & _ & _ & _ & T). rewrite T by (cbn; lia). destruct D as (_ & _ & D). rewrite D by (cbn; lia).
    cbn. unfold turn. apply C_ext; cbn; field; apply Rgt_not_eq, sqrt2_pos.
Qed.

(** with real data every step with delta * w < 2 settles (C60_exact_limit); with complex data delta * w = 9/5 does not *)
Theorem C73_real_range_refuted : exists f f0 pr q w delta xs S,
  turned f f0 1 /\ convex_problem f0 pr 1 1 w w /\ (forall Z, length Z = 1%nat -> pr_proxf pr Z = Ok Z) /\ 0 < w /\ 0 < delta /\ delta * w < 2 /\
  gradlogpi f pr q xs None = Ok (vzero 1) /\ white S 1 1 /\
  forall M, exists prm fuel K s0, tape_runs tape_rng f pr q prm fuel [1%nat] xs s0 1 1 K 0 /\ i_delta s0 = delta /\
    M < mean_sq S K (myula_run (mcmc_ops tape_rng f pr q) prm fuel (StartArray [1%nat] xs)) s0 0 (re_part xs).
Proof.
  set (pr := mkPrior (fun _ => Ok 0) (fun X => soft X (TScal 0))). set (q := mkNum 1 1 1 false).
  exists turned_fwd, (weighted_fwd 1), pr, q, 1, (9 / 5), [RtoC 1], coin.
  assert (CP : convex_problem (weighted_fwd 1) pr 1 1 1 1) by (apply weighted_problem; lra).
  assert (NP : forall Z, length Z = 1%nat -> pr_proxf pr Z = Ok Z) by (intros Z _; apply soft_zero).
  assert (EG : gradlogpi turned_fwd pr q [RtoC 1] None = Ok (vzero 1)).
  { unfold gradlogpi. rewrite (NP [RtoC 1] eq_refl). cbn. unfold vzero. cbn. do 2 f_equal. unfold turn. apply C_ext; cbn; ring. }
  split; [apply turned_fwd_turned|]. split; [exact CP|]. split; [exact NP|]. split; [lra|]. split; [lra|]. split; [lra|]. split; [exact EG|].
  split; [apply coin_white|]. intros M.
  assert (S95 : sqrt 2 <= 9 / 5 * 1).
  { assert (P := sqrt2_pos). assert (S2 : sqrt 2 * sqrt 2 = 2) by (apply sqrt_sqrt; lra). nra. }
  destruct (C73_grows 1 (9 / 5) 1 ltac:(lra) ltac:(lra) S95 M) as (k0 & HG).
  set (prm := {| p_nsamples := 1; p_nburn := Z.of_nat k0; p_ngap := 0; p_verbosity := 0; p_track := ["logposterior"; "L2"; "prior"; "chain"]%string |}).
  destruct (C73_runs_exist turned_fwd (weighted_fwd 1) pr q prm 1 1 1 1 (9 / 5) (total_iters (p_nburn prm) (p_ngap prm) 1) [RtoC 1] 1 (steps_to prm 0) 0
    turned_fwd_turned CP ltac:(cbn; lra) ltac:(intros; eexists; reflexivity) eq_refl eq_refl eq_refl ltac:(lia) ltac:(lia) ltac:(cbn [q n_complex per_step]; lia)) as (s0 & E0 & ED & TR).
  exists prm, (total_iters (p_nburn prm) (p_ngap prm) 1), (steps_to prm 0), s0. split; [exact TR|]. split; [exact ED|].
  rewrite (C73_exact tape_rng turned_fwd (weighted_fwd 1) pr q prm _ [1%nat] [RtoC 1] s0 1 1 1 _ 0 1 coin 1 [RtoC 1] turned_fwd_turned CP NP ltac:(cbn; lra) eq_refl ltac:(lra) coin_white TR eq_refl EG).
  rewrite ED. assert (HK : (k0 <= steps_to prm 0)%nat) by (unfold steps_to, save_iter, first_save, prm; cbn [p_nburn p_ngap]; destruct (Z.ltb_spec (Z.of_nat k0) 0); cbn; lia).
  assert (B := HG _ HK). cbn [INR]. rewrite Rmult_1_r in *.
  assert (N := nrm2_nonneg (re_part (vscal (cpow (turned_factor (9 / 5) 1) (steps_to prm 0)) (vsub [RtoC 1] [RtoC 1])))). rewrite ?Rmult_1_r in *. lra.
Qed.
Print Assumptions C73_real_range_refuted.

(** the recorded misfit is not that of the row stored with it *)
Theorem C73_recorded_refuted : exists f pr q delta X d X' d' dr lp l2 pv lpr l2r pvr,
  (forall G (R0 : rng G) g, good_rng R0 -> g_randn R0 1 g = ([0], g) -> myula_trans (mcmc_ops R0 f pr q) delta (X, d, g) (X', d', g)) /\
  n_complex q = false /\ real_vec X /\ fo_forward f (re_part X') = Ok dr /\
  logpi f pr q X' d' = Ok (lp, l2, pv) /\ logpi f pr q (re_part X') dr = Ok (lpr, l2r, pvr) /\ Re l2 <> Re l2r /\ Re lp <> Re lpr.
Proof.
  set (pr := mkPrior (fun _ => Ok 0) (fun X => soft X (TScal 0))). set (q := mkNum 1 1 1 false). set (h := / sqrt 2).
  set (X' := [((h, - h) : C)]).
  assert (P := sqrt2_pos). assert (HP : 0 < h) by (apply Rinv_0_lt_compat; exact P). assert (HH : h ^ 2 = 1 / 2) by apply half_sqrt2.
  assert (DW : is_diagonal (fo_invcov (weighted_fwd 1)) (map RtoC [1])).
  { split; [reflexivity|]. split; [reflexivity|]. intros [|i] [|j] Hi Hj; cbn in Hi, Hj; try lia. reflexivity. }
  assert (EL : exists lp l2 pv, logpi turned_fwd pr q X' X' = Ok (lp, l2, pv) /\ lp = (- l2)%C).
  { rewrite (logpi_value turned_fwd pr q X' X' 1) by reflexivity. cbn [rbind pr pr_prior]. cbv zeta. do 3 eexists. split; [reflexivity|]. cbn [n_mu q]. apply C_ext; cbn; ring. }
  assert (ER : exists lp l2 pv, logpi turned_fwd pr q (re_part X') (re_part X') = Ok (lp, l2, pv) /\ lp = (- l2)%C).
  { rewrite (logpi_value turned_fwd pr q (re_part X') (re_part X') 1) by reflexivity. cbn [rbind pr pr_prior]. cbv zeta. do 3 eexists. split; [reflexivity|]. cbn [n_mu q]. apply C_ext; cbn; ring. }
  destruct EL as (lp & l2 & pv & EL & VL). destruct ER as (lpr & l2r & pvr & ER & VR).
  exists turned_fwd, pr, q, 1, [RtoC 0], [RtoC 0], X', X', (re_part X'), lp, l2, pv, lpr, l2r, pvr.
  assert (CP : convex_problem (weighted_fwd 1) pr 1 1 1 1) by (apply weighted_problem; lra).
  assert (LM : linear_model (weighted_fwd 1) 1 1) by apply CP.
  split; [|split; [reflexivity|split; [constructor; [reflexivity|constructor]|split; [reflexivity|split; [exact EL|split; [exact ER|]]]]]].
  - intros G R0 g GR EG. unfold myula_trans. cbn [mcmc_ops o_gradg o_proxf o_step o_forward].
    assert (NP : pr_proxf pr [RtoC 0] = Ok [RtoC 0]) by apply soft_zero.
    assert (E1 : fo_gradg turned_fwd [RtoC 0] = Ok [(turn * (RtoC 0 - RtoC 1))%C]) by (cbn; do 2 f_equal; unfold turn; apply C_ext; cbn; ring).
    exists [(turn * (RtoC 0 - RtoC 1))%C], [RtoC 0]. split; [exact E1|]. split; [exact NP|]. split; [|reflexivity].
    destruct (C12_step _ R0 turned_fwd pr q 1 [RtoC 0] [RtoC 0] [RtoC 0] _ g 1 GR eq_refl ltac:(cbn; lra) eq_refl eq_refl NP E1 eq_refl eq_refl) as (gl & _ & _ & -> & S1).
    rewrite S1. cbn [q n_complex noise]. rewrite EG. cbn [fst snd]. unfold X', turn, vadd, vscal, vsub. cbn [map map2]. fold h. do 3 f_equal. apply C_ext; cbn; ring.
  - assert (MS : Re l2 = Re l2r + rsum (map2 (fun a z => a * Re z ^ 2) [1] (im_part X')) / sqrt 2).
    { apply (C73_misfit turned_fwd (weighted_fwd 1) pr q 1 1 [1] X' X' (re_part X') (im_part X') lp l2 pv lpr l2r pvr turned_fwd_turned LM eq_refl DW eq_refl); auto.
      - constructor; [reflexivity|constructor].
      - intros x y _ Rx E. cbn in E. injection E as <-. exact Rx. }
    assert (V : rsum (map2 (fun a z => a * Re z ^ 2) [1] (im_part X')) = 1 / 2) by (cbn; rewrite <- HH; ring).
    rewrite V in MS. assert (0 < 1 / 2 / sqrt 2) by (apply Rdiv_lt_0_compat; lra).
    split; [lra|]. rewrite VL, VR. cbn. unfold Re in MS. lra.
Qed.
Print Assumptions C73_recorded_refuted.

(** delta = 1/2, coin noise, start at the datum: the second row has mean square
    1 + (1 - 1/(2 sqrt 2))^2 = 1.418, where real data give 5/4 (C60_case) *)
Example C73_case : let f := turned_fwd in let pr := mkPrior (fun _ => Ok 0) (fun X => soft X (TScal 0)) in
  let q := mkNum 1 1 1 false in
  let prm := {| p_nsamples := 2; p_nburn := 0; p_ngap := 0; p_verbosity := 0; p_track := ["logposterior"; "L2"; "prior"; "chain"]%string |} in
  exists s0, new_sampler (mcmc_ops tape_rng f pr q) prm (1 / 2) = Ok s0 /\
    mean_sq coin 2 (myula_run (mcmc_ops tape_rng f pr q) prm 2 (StartArray [1%nat] [RtoC 1])) s0 1 [RtoC 1] = 1 + (1 - / (2 * sqrt 2)) ^ 2.
Proof.
  intros f pr q prm. assert (CP : convex_problem (weighted_fwd 1) pr 1 1 1 1) by (apply weighted_problem; lra).
  destruct (C73_runs_exist f (weighted_fwd 1) pr q prm 1 1 1 1 (1 / 2) 2 [RtoC 1] 2 2 1 turned_fwd_turned CP ltac:(cbn; lra) ltac:(intros; eexists; reflexivity) eq_refl eq_refl eq_refl
    ltac:(vm_compute; lia) ltac:(lia) ltac:(vm_compute; lia)) as (s0 & E0 & ED & TR). exists s0. split; [exact E0|].
  assert (NP : forall Z, length Z = 1%nat -> pr_proxf pr Z = Ok Z) by (intros Z _; apply soft_zero).
  assert (EG : gradlogpi f pr q [RtoC 1] None = Ok (vzero 1)).
  { unfold gradlogpi. rewrite (NP [RtoC 1] eq_refl). cbn. unfold vzero. cbn. do 2 f_equal. unfold turn. apply C_ext; cbn; ring. }
  assert (E := C73_exact tape_rng f (weighted_fwd 1) pr q prm 2 [1%nat] [RtoC 1] s0 1 1 2 2 1 1 coin 1 [RtoC 1] turned_fwd_turned CP NP ltac:(cbn; lra) eq_refl ltac:(lra) coin_white TR eq_refl EG).
  cbn zeta in E. change (re_part [RtoC 1]) with [RtoC 1] in E. rewrite E, ED.
  change (steps_to prm 1) with 2%nat. assert (P := sqrt2_pos).
  replace (vsub [RtoC 1] [RtoC 1]) with [RtoC 0] by (unfold vsub; cbn; f_equal; apply C_ext; cbn; ring).
  unfold vscal, re_part. cbn [map]. rewrite nrm2_cons, nrm2_nil. cbn [re_geom cpow INR]. unfold turned_factor, turn. cbn. field. lra.
Qed.
