(** C07, C10, C12, C13, C16: the numerical part of the samplers. *)
From Coq Require Import List ZArith Lia Bool Reals Lra Psatz String.
From Coquelicot Require Import Coquelicot.
From Verif Require Import PyBase PyBaseFacts Sampler SamplerSpec SamplerMain CVec RSort Thresh ThreshSpec ThreshProof Utils UtilsSpec
  OpSpec Prior PriorSpec PriorProof Forward Mcmc McmcSpec FwdProof StepProof McmcProof SkProof MeasProof P_Samplers.
Import ListNotations.
Open Scope R_scope.
Notation length := List.length.

(** ** C07: the tuned step size *)

(** A run that finished, or was stopped after any number of iterations. *)
Theorem C07_tuned : forall G (R0 : rng G) f pr q prm fuel start w w' n r,
  0 < n_lmda q -> sized (w_inst w) n -> p_nsamples prm = Z.of_nat n ->
  pxmala_run (mcmc_ops R0 f pr q) prm true fuel start w = (w', r) -> (r = Ret tt \/ r = NoFuel) ->
  exists accs ds, i_acc (w_inst w') = Some accs /\ i_deltas (w_inst w') = Some (i_delta (w_inst w) :: ds) /\
    (length accs <= fuel)%nat /\ tuned_history (n_lmda q) (i_delta (w_inst w)) accs ds /\
    i_delta (w_inst w') = last ds (i_delta (w_inst w)).
Proof.
  intros G R0 f pr q prm fuel start w w' n r L HS HN H [-> | ->].
  - destruct (mala_ref_ret _ _ _ _ _ _ _ _ HS HN H) as (k & Hk & R).
    destruct (reference_tuned R0 f pr q prm start w w' k n L R) as (accs & ds & A & B & D & E & F). subst k. eauto 10.
  - destruct (mala_ref_stop _ _ _ _ _ _ _ _ HS HN H) as (k & Hk & R).
    destruct (reference_tuned R0 f pr q prm start w w' fuel k L R) as (accs & ds & A & B & D & E & F). subst fuel. eauto 10.
Qed.
Print Assumptions C07_tuned.

Theorem C07_untuned : forall G (R0 : rng G) f pr q prm fuel start w w' n r,
  sized (w_inst w) n -> p_nsamples prm = Z.of_nat n ->
  pxmala_run (mcmc_ops R0 f pr q) prm false fuel start w = (w', r) -> (r = Ret tt \/ r = NoFuel) ->
  i_deltas (w_inst w') = Some [i_delta (w_inst w)] /\ i_delta (w_inst w') = i_delta (w_inst w).
Proof.
  intros G R0 f pr q prm fuel start w w' n r HS HN H [-> | ->].
  - destruct (mala_ref_ret _ _ _ _ _ _ _ _ HS HN H) as (k & Hk & R). eapply reference_untuned; eauto.
  - destruct (mala_ref_stop _ _ _ _ _ _ _ _ HS HN H) as (k & Hk & R). eapply reference_untuned; eauto.
Qed.
Print Assumptions C07_untuned.

(** adaptation vanishes: the bound on the change at iteration i tends to 0 *)
Theorem C07_adaptation_vanishes : forall lmda, is_lim_seq (fun i => lmda / 4 * Rpower (INR (i + 1)) (- (3 / 4))) 0.
Proof.
  intros lmda. replace (Finite 0) with (Rbar_mult (lmda / 4) 0) by (simpl; f_equal; ring).
  apply is_lim_seq_scal_l. unfold Rpower.
  apply (is_lim_seq_ext (fun n => exp (- (3 / 4) * ln (INR (n + 1))))); [reflexivity|].
  apply is_lim_seq_spec. intros eps. destruct (archimed (exp (4 / 3 * - ln eps))) as (A & _).
  set (z := up (exp (4 / 3 * - ln eps))) in *. assert (P := exp_pos (4 / 3 * - ln eps)).
  assert (Z0 : (0 <= z)%Z) by (apply le_IZR; lra).
  exists (Z.to_nat z). intros n Hn. rewrite Rminus_0_r, Rabs_pos_eq by (left; apply exp_pos).
  assert (HI : exp (4 / 3 * - ln eps) < INR (n + 1)).
  { apply Rlt_le_trans with (1 := A). rewrite INR_IZR_INZ. apply IZR_le. lia. }
  apply ln_increasing in HI; [|auto]. rewrite ln_exp in HI.
  rewrite <- (exp_ln eps) by apply cond_pos. apply exp_increasing. lra.
Qed.
Print Assumptions C07_adaptation_vanishes.

Example C07_case : forall q, n_lmda q = 1 -> tuned q (1 / 4) 1 0 = 3 / 8 /\ tuned q (1 / 4) 0 0 = 1 / 8 /\
  tuned q (2 / 5) 1 0 = 1 / 2 /\ tuned q (1 / 10 ^ 8) 0 0 = 1 / 10 ^ 8.
Proof.
  intros q L. unfold tuned. rewrite L. simpl Z.add. unfold Rpower. rewrite ln_1, Rmult_0_r, exp_0.
  unfold Rmin, Rmax. repeat split; repeat destruct (Rle_dec _ _); simpl in *; lra.
Qed.

(** ** C10: start point *)

(** a well-formed array: as many elements as the shape says *)
Definition well_formed (st : start_point) : Prop :=
  match st with StartArray shape buf => fold_right Nat.mul 1%nat shape = length buf | _ => True end.

Theorem C10_start_point : forall G (R0 : rng G) f q n st g, fo_nparams f = Some n -> well_formed st ->
  (* accepted: used as it is, nothing is drawn *)
  (forall X g', st <> StartNone -> (choose_start R0 f q st g = (Ok X, g') <-> st = StartArray [n] X /\ g' = g)) /\
  (* other types and dimensionalities *)
  (st = StartOther \/ (exists shape buf, st = StartArray shape buf /\ length shape <> 1%nat) ->
     choose_start R0 f q st g = (Raise TypeError, g)) /\
  (* other lengths *)
  (forall k buf, st = StartArray [k] buf -> k <> n -> choose_start R0 f q st g = (Raise ValueError, g)) /\
  (* None: Laplace variates *)
  (st = StartNone ->
     let a := g_laplace R0 n g in
     let b := g_laplace R0 n (snd a) in
     choose_start R0 f q st g =
       if n_complex q then (Ok (map2 (fun x y => (x, y)) (fst a) (fst b)), snd b) else (Ok (map RtoC (fst a)), snd a)).
Proof.
  intros G R0 f q n st g EN WF. split; [|split; [|split]].
  - intros X g' NN. split.
    + destruct st as [|shape buf|]; [contradiction| |discriminate]. simpl. rewrite EN.
      destruct (Nat.eqb_spec (length shape) 1) as [E1|]; simpl; [|discriminate].
      destruct (Nat.eqb_spec (length buf) n) as [E2|]; [|discriminate]. intros E; injection E as -> ->.
      destruct shape as [|k [|]]; try discriminate. simpl in WF. assert (k = n) by lia. subst. auto.
    + intros (-> & ->). simpl in WF. simpl. rewrite EN. rewrite Nat.mul_1_r in WF.
      rewrite (proj2 (Nat.eqb_eq _ _) (eq_sym WF)). reflexivity.
  - intros [-> | (shape & buf & -> & H)]; [reflexivity|]. simpl. rewrite (proj2 (Nat.eqb_neq _ _) H). reflexivity.
  - intros k buf -> H. simpl in *. rewrite EN. rewrite (proj2 (Nat.eqb_neq _ _)) by lia. reflexivity.
  - intros ->. cbv zeta. simpl. rewrite EN. destruct (n_complex q).
    + rewrite draw_complex. reflexivity.
    + rewrite draw_real. reflexivity.
Qed.
Print Assumptions C10_start_point.

(** The rejection reaches the caller of run, and neither the generator nor any
    recorded array has changed. *)
Theorem C10_run_rejects : forall G (R0 : rng G) f pr q prm fuel st w n e, fo_nparams f = Some n -> well_formed st ->
  (st = StartOther /\ e = TypeError \/
   (exists shape buf, st = StartArray shape buf /\ length shape <> 1%nat /\ e = TypeError) \/
   (exists k buf, st = StartArray [k] buf /\ k <> n /\ e = ValueError)) ->
  let o := mcmc_ops R0 f pr q in
  (exists w', myula_run o prm fuel st w = (w', Exn e) /\ w_inst w' = w_inst w /\ w_rng w' = w_rng w) /\
  (exists w', skrock_run o prm fuel st w = (w', Exn e) /\ w_inst w' = w_inst w /\ w_rng w' = w_rng w) /\
  (forall tune, exists w', pxmala_run o prm tune fuel st w = (w', Exn e) /\
     same_arrays (w_inst w') (w_inst w) /\ i_delta (w_inst w') = i_delta (w_inst w) /\
     i_out (w_inst w') = i_out (w_inst w) /\ w_rng w' = w_rng w).
Proof.
  intros G R0 f pr q prm fuel st w n e EN WF H o.
  assert (E : o_init o st (w_rng w) = (Raise e, w_rng w)).
  { destruct (C10_start_point G R0 f q n st (w_rng w) EN WF) as (_ & A & B & _). simpl.
    destruct H as [(-> & ->) | [(shape & buf & -> & H & ->) | (k & buf & -> & H & ->)]].
    - apply A; auto.
    - apply A. eauto.
    - eapply B; eauto. }
  exact (start_rejected o prm fuel st w e (w_rng w) E).
Qed.
Print Assumptions C10_run_rejects.

Example C10_numeric_case : forall G (R0 : rng G) q g,
  let f := unit_fwd (RtoC 1) in
  choose_start R0 f q (StartArray [1%nat] [RtoC 7]) g = (Ok [RtoC 7], g) /\
  choose_start R0 f q (StartArray [2%nat] [RtoC 7; RtoC 8]) g = (Raise ValueError, g) /\
  choose_start R0 f q (StartArray [1%nat; 1%nat] [RtoC 7]) g = (Raise TypeError, g).
Proof. intros; repeat split. Qed.

(** ** C12: the MYULA step *)

(** [w] is what the noise is: randn(n), plus 1j*randn(n) if complex *)
Definition noise {G} (R0 : rng G) (cplx : bool) (n : nat) (g : G) : vec * G :=
  let a := g_randn R0 n g in
  let b := g_randn R0 n (snd a) in
  if cplx then (map2 (fun x y => (x, y)) (fst a) (fst b), snd b) else (map RtoC (fst a), snd a).

Theorem C12_step : forall G (R0 : rng G) f pr q delta X d p gr g n,
  good_rng R0 -> fo_nparams f = Some n -> n_lmda q <> 0 -> length X = n ->
  fo_forward f X = Ok d -> pr_proxf pr X = Ok p -> fo_gradg f d = Ok gr -> length p = n -> length gr = n ->
  exists gl,
    gradlogpi f pr q X None = Ok gl /\ gradlogpi f pr q X (Some d) = Ok gl /\
    gl = vsub (vscal (RtoC (- / n_lmda q)) (vsub X p)) gr /\
    chain_step R0 f q delta X p gr g =
      let (w, g') := noise R0 (n_complex q) n g in
      (Ok (vadd (vadd X (vscal (RtoC delta) gl)) (vscal (RtoC (sqrt (2 * delta))) w)), g').
Proof.
  intros G R0 f pr q delta X d p gr g n GR EN NZ LX ED EP EG Lp Lg.
  exists (langevin_drift (n_lmda q) X p gr).
  split; [eapply gradlogpi_value; eauto; congruence|]. split; [eapply gradlogpi_value; eauto; congruence|].
  split; [reflexivity|]. rewrite (chain_step_value R0 f q delta X p gr g n) by auto.
  assert (E : draw (g_randn R0) (n_complex q) n g = noise R0 (n_complex q) n g).
  { unfold noise. destruct (n_complex q); [apply draw_complex|apply draw_real]. }
  rewrite E. reflexivity.
Qed.
Print Assumptions C12_step.

(** lmda = 0 raises, whatever the rest *)
Theorem C12_zero_lmda : forall G (R0 : rng G) f q delta X p gr g n, fo_nparams f = Some n -> n_lmda q = 0 ->
  fst (chain_step R0 f q delta X p gr g) = Raise ZeroDivisionError.
Proof.
  intros G R0 f q delta X p gr g n EN Z. unfold chain_step. rewrite EN, Z. destruct (draw _ _ _ _).
  destruct (Req_EM_T 0 0); [reflexivity|lra].
Qed.
Print Assumptions C12_zero_lmda.

Lemma soft_envelope_prox : forall lmda mu X, 0 < lmda -> 0 <= mu ->
  is_prox (fun u => lmda * (mu * l1norm u)) X (map2 soft1 X (repeat (lmda * mu) (length X))).
Proof.
  intros lmda mu X L M. apply (is_prox_ext (wl1 (repeat (lmda * mu) (length X)))).
  - intros u Hu. rewrite <- Hu, wl1_repeat. ring.
  - apply soft_is_prox; [apply repeat_length|]. intros x Hx. apply repeat_spec in Hx. nra.
Qed.

(** The prox term is the gradient of the Moreau-Yosida envelope of mu*||.||_1:
    first-order expansion with remainder between 0 and ||h||^2/(2 lmda). *)
Theorem C12_moreau_gradient : forall lmda mu X s, 0 < lmda -> 0 <= mu -> soft X (TScal (lmda * mu)) = Ok s ->
  is_gradient (is_envelope (fun u => mu * l1norm u) lmda) (/ (2 * lmda)) X (vscal (RtoC (/ lmda)) (vsub X s)).
Proof.
  intros lmda mu X s L M E.
  assert (Es : s = map2 soft1 X (repeat (lmda * mu) (length X))).
  { assert (T : thresholds (TScal (lmda * mu)) (length X) (repeat (lmda * mu) (length X))) by (split; [apply repeat_length|reflexivity]).
    rewrite (soft_thresholds _ _ _ T) in E. congruence. }
  subst s. apply envelope_gradient; auto using soft_envelope_prox. intros x. eexists. apply soft_envelope_prox; auto.
Qed.
Print Assumptions C12_moreau_gradient.

(** the envelope exists everywhere, so the previous statement is not vacuous *)
Theorem C12_envelope_exists : forall lmda mu X, 0 < lmda -> 0 <= mu -> exists s e,
  soft X (TScal (lmda * mu)) = Ok s /\ is_envelope (fun u => mu * l1norm u) lmda X e /\
  e = mu * l1norm s + nrm2 (vsub s X) / (2 * lmda).
Proof.
  intros lmda mu X L M.
  assert (T : thresholds (TScal (lmda * mu)) (length X) (repeat (lmda * mu) (length X))) by (split; [apply repeat_length|reflexivity]).
  exists (map2 soft1 X (repeat (lmda * mu) (length X))). eexists. split; [exact (soft_thresholds _ _ _ T)|]. split; [|reflexivity].
  apply (prox_envelope (fun u => mu * l1norm u) lmda L).
  apply soft_envelope_prox; auto.
Qed.
Print Assumptions C12_envelope_exists.

(** one parameter, data 1, X = 3, prox 2, lmda = 1/2, delta = 1/4: drift is
    -2*(3-2) - (3-1) = -4, step 3 - 1 + sqrt(1/2) w *)
Example C12_case : forall G (R0 : rng G) g, good_rng R0 ->
  let q := mkNum (1 / 2) 1 1 false in
  chain_step R0 (unit_fwd (RtoC 1)) q (1 / 4) [RtoC 3] [RtoC 2] [RtoC 2] g =
  let (w, g') := noise R0 false 1 g in (Ok (vadd [RtoC 2] (vscal (RtoC (sqrt (1 / 2))) w)), g').
Proof.
  intros G R0 g GR q. rewrite (chain_step_value R0 (unit_fwd (RtoC 1)) q _ _ _ _ _ 1) by (try reflexivity; auto; simpl; lra).
  replace (draw (g_randn R0) (n_complex q) 1 g) with (noise R0 false 1 g) by (symmetry; apply draw_real).
  destruct (noise R0 false 1 g) as [w g']. f_equal. f_equal. f_equal.
  - unfold langevin_drift, vsub, vscal, vadd. simpl. f_equal. cplx; field.
  - f_equal. f_equal. f_equal. lra.
Qed.

(** ** C13: acceptance ratio *)

Section Balance.
Context {G : Type} (R0 : rng G) (f : forward_op) (pr : prior_obj) (q : numparams).
Notation o := (mcmc_ops R0 f pr q).

(** log pi at x, and log q(x -> y) as the code computes it *)
Definition target_at (x : vec) (l : C) : Prop :=
  exists d l2 p, fo_forward f x = Ok d /\ logpi f pr q x d = Ok (l, l2, p).
Definition coded_transition (delta : R) (x y : vec) (l : C) : Prop :=
  exists d gr p, fo_forward f x = Ok d /\ fo_gradg f d = Ok gr /\ pr_proxf pr x = Ok p /\
    logtransition q delta x y p gr = Ok l.
(** mean of the proposal from x *)
Definition proposal_mean (delta : R) (x mean : vec) : Prop :=
  exists gl, gradlogpi f pr q x None = Ok gl /\ mean = vadd x (vscal (RtoC delta) gl).
End Balance.

(** what calc_logtransition computes *)
Theorem C13_logtransition_value : forall q delta X1 X2 p gr,
  length p = length X1 -> length gr = length X1 -> length X2 = length X1 ->
  logtransition q delta X1 X2 p gr =
  let r := vsub (vsub X2 X1) (vscal (RtoC (delta / 2)) (vsub (vscal (RtoC (- / n_lmda q)) (vsub X1 p)) gr)) in
  let s := csum (map (fun z => z * z)%C r) in
  Ok (RtoC (- delta / 2) * (s * s))%C.
Proof.
  intros q delta X1 X2 p gr Lp Lg L2. unfold logtransition.
  assert (Ld : length (vsub X1 p) = length X1) by (apply vsub_length; auto).
  rewrite np_sub_same by auto. cbn [rbind]. rewrite vopp_vscal. rewrite np_sub_same by (rewrite vscal_length; congruence). cbn [rbind].
  rewrite np_sub_same by auto. cbn [rbind]. rewrite np_sub_same.
  - cbn [rbind]. cbv zeta. replace (- (1 / 2 * delta)) with (- delta / 2) by field. reflexivity.
  - rewrite vsub_length, vscal_length, vsub_length; rewrite ?vscal_length; congruence.
Qed.
Print Assumptions C13_logtransition_value.

(** the ratio the loop uses is log pi(y) + log q(y->x) - log pi(x) - log q(x->y)
    with these terms *)
Theorem C13_logalpha : forall G (R0 : rng G) f pr q delta x y a lx ly qxy qyx,
  mh_logalpha (mcmc_ops R0 f pr q) delta x y a ->
  target_at f pr q x lx -> target_at f pr q y ly ->
  coded_transition f pr q delta x y qxy -> coded_transition f pr q delta y x qyx ->
  a = (qyx + ly - qxy - lx)%C.
Proof.
  intros G R0 f pr q delta x y a lx ly qxy qyx
    (dx & gx & px & tx & dy & gy & py & ty & q1 & q2 & A1 & A2 & A3 & A4 & A5 & A6 & A7 & A8 & A9 & A10 & ->)
    (d1 & l1 & p1 & B1 & B2) (d2 & l2 & p2 & B3 & B4) (d3 & g3 & p3 & B5 & B6 & B7 & B8) (d4 & g4 & p4 & B9 & B10 & B11 & B12).
  simpl in *. rewrite A1 in B1, B5. injection B1 as <-. injection B5 as <-. rewrite A5 in B3, B9. injection B3 as <-. injection B9 as <-.
  rewrite A4 in B2. injection B2 as ->. rewrite A8 in B4. injection B4 as ->.
  rewrite A2 in B6. injection B6 as <-. rewrite A3 in B7. injection B7 as <-. rewrite A6 in B10. injection B10 as <-. rewrite A7 in B11. injection B11 as <-.
  rewrite A9 in B8. injection B8 as <-. rewrite A10 in B12. injection B12 as <-. reflexivity.
Qed.
Print Assumptions C13_logalpha.

(** accepting iff log u < log alpha is accepting with probability min(1, alpha) *)
Theorem C13_accept_rule : forall G (R0 : rng G) f pr q g g' u a,
  g_rand R0 g = (u, g') -> 0 < u < 1 ->
  let o := mcmc_ops R0 f pr q in
  o_logrand o g = (RtoC (ln u), g') /\
  (o_kltb o (RtoC (ln u)) (RtoC a) = true <-> u < accept_prob a).
Proof.
  intros G R0 f pr q g g' u a E U o. split; [simpl; unfold logrand; rewrite E; reflexivity|].
  simpl. rewrite clex_ltb_spec. unfold clex_lt. simpl. unfold accept_prob.
  assert (Q : ln u < a <-> u < exp a).
  { split; intros H; [rewrite <- (exp_ln u) by lra; apply exp_increasing; auto|].
    rewrite <- (ln_exp a). apply ln_increasing; lra. }
  unfold Rmin. destruct (Rle_dec 1 (exp a)); [|split; intros H; [apply Q; lra|left; apply Q; lra]].
  split; [lra|]. intros _. left. apply Q. lra.
Qed.
Print Assumptions C13_accept_rule.

(** a complex log alpha is compared lexicographically: real parts first *)
Theorem C13_accept_rule_complex : forall G (R0 : rng G) f pr q (r : R) a,
  o_kltb (mcmc_ops R0 f pr q) (RtoC r) a = true <-> r < Re a \/ (r = Re a /\ 0 < Im a).
Proof. intros. simpl. rewrite clex_ltb_spec. unfold clex_lt, Re, Im. simpl. tauto. Qed.
Print Assumptions C13_accept_rule_complex.

(** detailed balance with the coded q *)
Theorem C13_detailed_balance : forall f pr q delta x y lx ly qxy qyx,
  target_at f pr q x (RtoC lx) -> target_at f pr q y (RtoC ly) ->
  coded_transition f pr q delta x y (RtoC qxy) -> coded_transition f pr q delta y x (RtoC qyx) ->
  (forall G (R0 : rng G), exists a b,
     mh_logalpha (mcmc_ops R0 f pr q) delta x y (RtoC a) /\ mh_logalpha (mcmc_ops R0 f pr q) delta y x (RtoC b) /\
     exp lx * exp qxy * accept_prob a = exp ly * exp qyx * accept_prob b).
Proof.
  intros f pr q delta x y lx ly qxy qyx (d1 & l1 & p1 & B1 & B2) (d2 & l2 & p2 & B3 & B4)
    (d3 & g3 & p3 & B5 & B6 & B7 & B8) (d4 & g4 & p4 & B9 & B10 & B11 & B12) G R0.
  rewrite B1 in B5. injection B5 as <-. rewrite B3 in B9. injection B9 as <-.
  exists (qyx + ly - qxy - lx), (qxy + lx - qyx - ly). split; [|split].
  - exists d1, g3, p3, (RtoC lx, l1, p1), d2, g4, p4, (RtoC ly, l2, p2), (RtoC qxy), (RtoC qyx). simpl.
    repeat match goal with |- _ /\ _ => split end; auto. cplx.
  - exists d2, g4, p4, (RtoC ly, l2, p2), d1, g3, p3, (RtoC lx, l1, p1), (RtoC qyx), (RtoC qxy). simpl.
    repeat match goal with |- _ /\ _ => split end; auto. cplx.
  - set (A := lx + qxy). set (B := ly + qyx).
    replace (qyx + ly - qxy - lx) with (B - A) by (unfold A, B; ring). replace (qxy + lx - qyx - ly) with (A - B) by (unfold A, B; ring).
    rewrite <- !exp_plus. fold A B. unfold accept_prob, Rmin.
    assert (E : forall z, 1 <= exp z <-> 0 <= z).
    { intros z. rewrite <- exp_0. split; intros H; [|destruct (Rle_lt_or_eq_dec _ _ H); [left; apply exp_increasing; auto|subst; lra]].
      destruct (Rle_lt_dec 0 z); auto. apply exp_increasing in r. lra. }
    destruct (Rle_dec 1 (exp (B - A))) as [H|H], (Rle_dec 1 (exp (A - B))) as [H'|H']; rewrite E in H, H'; try lra.
    + replace A with B by lra. ring.
    + rewrite Rmult_1_r, <- exp_plus. f_equal. ring.
    + rewrite Rmult_1_r, <- exp_plus. f_equal. ring.
Qed.
Print Assumptions C13_detailed_balance.

(** the proposal: chain_step returns mean + sqrt(2 delta) w, so the standard
    normal noise that leads from x to y has log density (up to a constant)
    -|w|^2/2 = log_gauss delta mean y *)
Theorem C13_proposal_density : forall G (R0 : rng G) f pr q delta x d p gr g y g' n,
  good_rng R0 -> fo_nparams f = Some n -> n_lmda q <> 0 -> 0 < delta -> length x = n ->
  fo_forward f x = Ok d -> pr_proxf pr x = Ok p -> fo_gradg f d = Ok gr -> length p = n -> length gr = n ->
  chain_step R0 f q delta x p gr g = (Ok y, g') ->
  exists mean w, proposal_mean f pr q delta x mean /\ fst (noise R0 (n_complex q) n g) = w /\
    y = vadd mean (vscal (RtoC (sqrt (2 * delta))) w) /\ log_gauss delta mean y = - nrm2 w / 2.
Proof.
  intros G R0 f pr q delta x d p gr g y g' n GR EN NZ DP LX ED EP EG Lp Lg EY.
  destruct (C12_step G R0 f pr q delta x d p gr g n GR EN NZ LX ED EP EG Lp Lg) as (gl & A1 & _ & A3 & A4).
  rewrite A4 in EY.
  assert (Lw : length (fst (noise R0 (n_complex q) n g)) = n).
  { replace (noise R0 (n_complex q) n g) with (draw (g_randn R0) (n_complex q) n g).
    - apply draw_length. intros; apply GR.
    - unfold noise. destruct (n_complex q); [apply draw_complex|apply draw_real]. }
  destruct (noise R0 (n_complex q) n g) as [w g1] eqn:EW. injection EY as <- <-. simpl in Lw.
  exists (vadd x (vscal (RtoC delta) gl)), w. split; [exists gl; auto|]. split; [reflexivity|]. split; [reflexivity|].
  assert (Lgl : length gl = n).
  { rewrite A3. assert (length (vsub x p) = n) by (rewrite vsub_length; congruence). rewrite vsub_length; rewrite vscal_length; congruence. }
  unfold log_gauss. rewrite vsub_vadd_cancel by (rewrite vscal_length, vadd_length; rewrite ?vscal_length; congruence).
  assert (E : nrm2 (vscal (RtoC (sqrt (2 * delta))) w) = 2 * delta * nrm2 w).
  { unfold nrm2, vscal. rewrite map_map, <- rsum_map_scal. apply rsum_map_ext. intros z _.
    rewrite Cmod_mult, Cmod_R, Rabs_pos_eq by apply sqrt_pos. rewrite Rpow_mult_distr. rewrite pow2_sqrt by lra. ring. }
  rewrite E. field. lra.
Qed.
Print Assumptions C13_proposal_density.

(** ** the counterexample: one parameter, identity operators, data 0, error 1,
    mu = 0, prox = identity, lmda = delta = 1, states 0 and 1 *)
Definition bal_fwd := unit_fwd (RtoC 0).
Definition bal_pr := mkPrior (fun X => Ok (L1_prior X)) (fun X => soft X (TScal 0)).
Definition bal_q := mkNum 1 0 1 false.

Lemma bal_forward : forall x, fo_forward bal_fwd x = Ok x. Proof. reflexivity. Qed.
Lemma bal_gradg : forall r, fo_gradg bal_fwd [RtoC r] = Ok [RtoC r].
Proof.
  intros r. unfold fo_gradg, gradg_analysis, bal_fwd, unit_fwd.
  cbn [fo_setting fo_measurement attr rbind String.eqb Ascii.eqb Bool.eqb fo_data d_val fo_invcov].
  cbn. f_equal. f_equal. cplx.
Qed.
Lemma bal_prox : forall r, 0 <= r -> pr_proxf bal_pr [RtoC r] = Ok [RtoC r].
Proof.
  intros r Hr. simpl. rewrite soft_scal. simpl. f_equal. f_equal. unfold soft1. rewrite Cmod_R, Rabs_pos_eq by auto.
  destruct (Rle_dec r 0); [f_equal; lra|]. destruct (Req_EM_T r 0); [f_equal; lra|]. rewrite <- RtoC_mult. f_equal. field. auto.
Qed.
Lemma bal_target : forall r, target_at bal_fwd bal_pr bal_q [RtoC r] (RtoC (- r ^ 2)).
Proof.
  intros r. exists [RtoC r]. unfold target_at. rewrite (logpi_value bal_fwd bal_pr bal_q _ [RtoC r] 1) by reflexivity.
  cbn [pr_prior bal_pr rbind]. cbv zeta. do 2 eexists. split; [reflexivity|]. apply f_equal. apply f_equal2; [apply f_equal2|]; try reflexivity.
  rewrite (quadform_diagonal _ [RtoC 1]) by (reflexivity || apply (scaled_identity_diagonal 1)).
  cbn [map2 csum fold_right bal_fwd unit_fwd fo_data d_val vsub]. rewrite Cmod_sq. simpl n_mu. cplx.
Qed.
Lemma bal_trans : forall a b, 0 <= a ->
  coded_transition bal_fwd bal_pr bal_q 1 [RtoC a] [RtoC b] (RtoC (- (1 / 2) * ((b - a / 2) ^ 2) ^ 2)).
Proof.
  intros a b Ha. exists [RtoC a], [RtoC a], [RtoC a]. split; [reflexivity|]. split; [apply bal_gradg|]. split; [apply bal_prox; auto|].
  rewrite C13_logtransition_value by reflexivity. cbv zeta. f_equal. unfold vsub, vscal; simpl. cplx; field.
Qed.
Lemma bal_mean : forall a, 0 <= a -> proposal_mean bal_fwd bal_pr bal_q 1 [RtoC a] [RtoC 0].
Proof.
  intros a Ha. exists [RtoC (- a)]. split.
  - rewrite (gradlogpi_value bal_fwd bal_pr bal_q [RtoC a] [RtoC a] [RtoC a] [RtoC a] None); auto using bal_prox, bal_gradg.
    unfold langevin_drift, vsub, vscal; simpl. f_equal. f_equal. cplx; field.
  - unfold vadd, vscal; simpl. f_equal. cplx.
Qed.

(** calc_logtransition is not the log density of the proposal: log ratios between
    two end points differ *)
Theorem C13_transition_density_refuted : exists f pr q delta x mean y1 y2 l1 l2,
  proposal_mean f pr q delta x mean /\
  coded_transition f pr q delta x y1 (RtoC l1) /\ coded_transition f pr q delta x y2 (RtoC l2) /\
  l1 - l2 <> log_gauss delta mean y1 - log_gauss delta mean y2.
Proof.
  exists bal_fwd, bal_pr, bal_q, 1, [RtoC 0], [RtoC 0], [RtoC 1], [RtoC 0].
  do 2 eexists. split; [apply bal_mean; lra|]. split; [apply bal_trans; lra|]. split; [apply bal_trans; lra|].
  unfold log_gauss, nrm2, vsub; simpl map2. cbn [map rsum fold_right]. rewrite !Cmod_sq. simpl. lra.
Qed.
Print Assumptions C13_transition_density_refuted.

(** with the density of the actual proposal the balance fails *)
Theorem C13_reversible_refuted : exists f pr q delta x y mx my lx ly a b,
  target_at f pr q x (RtoC lx) /\ target_at f pr q y (RtoC ly) /\
  proposal_mean f pr q delta x mx /\ proposal_mean f pr q delta y my /\
  (forall G (R0 : rng G), mh_logalpha (mcmc_ops R0 f pr q) delta x y (RtoC a) /\
                          mh_logalpha (mcmc_ops R0 f pr q) delta y x (RtoC b)) /\
  exp lx * exp (log_gauss delta mx y) * accept_prob a <> exp ly * exp (log_gauss delta my x) * accept_prob b.
Proof.
  exists bal_fwd, bal_pr, bal_q, 1, [RtoC 0], [RtoC 1], [RtoC 0], [RtoC 0], (- 0 ^ 2), (- 1 ^ 2), (- (17 / 32)), (17 / 32).
  split; [apply bal_target|]. split; [apply bal_target|]. split; [apply bal_mean; lra|]. split; [apply bal_mean; lra|]. split.
  - intros G R0.
    destruct (C13_detailed_balance bal_fwd bal_pr bal_q 1 [RtoC 0] [RtoC 1] _ _ _ _
      (bal_target 0) (bal_target 1) (bal_trans 0 1 ltac:(lra)) (bal_trans 1 0 ltac:(lra)) G R0) as (a & b & A & B & _).
    assert (EA := C13_logalpha G R0 _ _ _ _ _ _ _ _ _ _ _ A (bal_target 0) (bal_target 1) (bal_trans 0 1 ltac:(lra)) (bal_trans 1 0 ltac:(lra))).
    assert (EB := C13_logalpha G R0 _ _ _ _ _ _ _ _ _ _ _ B (bal_target 1) (bal_target 0) (bal_trans 1 0 ltac:(lra)) (bal_trans 0 1 ltac:(lra))).
    apply (f_equal Re) in EA. apply (f_equal Re) in EB. unfold Re in EA, EB. simpl in EA, EB.
    replace (- (17 / 32)) with a by lra. replace (17 / 32) with b by lra. auto.
  - unfold log_gauss, nrm2, vsub; simpl map2. cbn [map rsum fold_right]. rewrite !Cmod_sq. simpl fst; simpl snd.
    unfold accept_prob. rewrite (Rmin_right 1 (exp (- (17 / 32)))), (Rmin_left 1 (exp (17 / 32))).
    + rewrite !Rmult_1_r, <- !exp_plus. intros H. apply exp_inv in H. lra.
    + left. rewrite <- exp_0. apply exp_increasing. lra.
    + left. rewrite <- exp_0. apply exp_increasing. lra.
Qed.
Print Assumptions C13_reversible_refuted.

Example C13_case : forall G (R0 : rng G), exists a,
  mh_logalpha (mcmc_ops R0 bal_fwd bal_pr bal_q) 1 [RtoC 0] [RtoC 1] (RtoC a) /\ a = - (17 / 32).
Proof.
  intros G R0.
  destruct (C13_detailed_balance bal_fwd bal_pr bal_q 1 [RtoC 0] [RtoC 1] _ _ _ _
    (bal_target 0) (bal_target 1) (bal_trans 0 1 ltac:(lra)) (bal_trans 1 0 ltac:(lra)) G R0) as (a & b & A & B & _).
  exists a. split; [exact A|].
  assert (EA := C13_logalpha G R0 _ _ _ _ _ _ _ _ _ _ _ A (bal_target 0) (bal_target 1) (bal_trans 0 1 ltac:(lra)) (bal_trans 1 0 ltac:(lra))).
  apply (f_equal Re) in EA. unfold Re in EA. simpl in EA. lra.
Qed.

(** ** C16: SKROCK *)

(** construction: fails for s <= 0, succeeds for every s >= 1 *)
Theorem C16_construction : forall q,
  (n_s q = 0%Z -> skrock_init q = Raise ZeroDivisionError) /\
  ((n_s q < 0)%Z -> skrock_init q = Raise ValueError) /\
  ((1 <= n_s q)%Z -> exists l, skrock_init q = Ok l /\ length l = S (Z.to_nat (n_s q)) /\
     forall j, (j <= Z.to_nat (n_s q))%nat -> coef q j = Ok (nth j l (0, 0, 0))).
Proof.
  intros q. split; [|split].
  - intros E. unfold skrock_init. rewrite E. reflexivity.
  - intros E. unfold skrock_init. replace (Z.to_nat (n_s q) + 1)%nat with 1%nat by lia. cbn [seq map rseq]. unfold coef, omega_1, chebyshev1. destruct (Z.eqb_spec (n_s q) 0); [lia|]. destruct (Z.ltb_spec (n_s q) 0); [reflexivity|lia].
  - intros E. destruct (skrock_init_ok q (Z.to_nat (n_s q)) ltac:(lia) ltac:(lia)) as (l & El). exists l. split; [exact El|].
    unfold skrock_init in El. destruct (Z.eqb_spec (n_s q) 0); [lia|].
    assert (Q : map Ok l = map (coef q) (seq 0 (Z.to_nat (n_s q) + 1))).
    { revert El. generalize (map (coef q) (seq 0 (Z.to_nat (n_s q) + 1))). clear. intros r. revert l.
      induction r as [|[c|] r IH]; intros l E; cbn in E; try discriminate; [injection E as <-; reflexivity|].
      destruct (rseq r) as [l'|]; cbn in E; [|discriminate]. injection E as <-. simpl. f_equal. auto. }
    assert (L : length l = S (Z.to_nat (n_s q))).
    { assert (H := f_equal (@List.length _) Q). rewrite !map_length, seq_length in H. lia. }
    split; [exact L|]. intros j Hj.
    assert (H := f_equal (fun l => nth j l (Ok (0, 0, 0))) Q). cbv beta in H.
    rewrite (nth_map_in _ _ _ _ (0, 0, 0)) in H by lia.
    rewrite (nth_map_in _ _ _ _ 0%nat) in H by (rewrite seq_length; lia). rewrite seq_nth in H by lia. symmetry. exact H.
Qed.
Print Assumptions C16_construction.

(** s = 1 *)
Theorem C16_one_stage : forall f pr q delta X Z gl, n_s q = 1%Z -> length Z = length X ->
  gradlogpi f pr q (vadd X (vscal (RtoC (525 / 1000 * sqrt (2 * delta))) Z)) None = Ok gl -> length gl = length X ->
  K_recursion f pr q delta X 1 Z =
  Ok (vadd (vadd X (vscal (RtoC delta) gl)) (vscal (RtoC (sqrt (2 * delta))) Z)).
Proof.
  intros f pr q delta X Z gl Hs LZ EG LG. cbn [K_recursion]. rewrite coef_s1 by auto. cbn [rbind].
  rewrite np_add_same by (rewrite vscal_length; auto). cbn [rbind]. rewrite EG. cbn [rbind].
  rewrite !Rmult_1_l. rewrite np_add_same by (rewrite vscal_length; auto). cbn [rbind].
  rewrite np_add_same by (rewrite vadd_length; rewrite !vscal_length; congruence). reflexivity.
Qed.
Print Assumptions C16_one_stage.

(** the step draws len(X) normal variates (plus as many imaginary ones) and
    runs s stages *)
Theorem C16_step : forall G (R0 : rng G) f pr q delta X g,
  skrock_step R0 f pr q delta X g =
  let (Z, g') := noise R0 (n_complex q) (length X) g in (K_recursion f pr q delta X (Z.to_nat (n_s q)) Z, g').
Proof.
  intros G R0 f pr q delta X g. unfold skrock_step.
  replace (draw (g_randn R0) (n_complex q) (length X) g) with (noise R0 (n_complex q) (length X) g); [reflexivity|].
  unfold noise. destruct (n_complex q); [symmetry; apply draw_complex|symmetry; apply draw_real].
Qed.
Print Assumptions C16_step.

(** with no gradient and no noise one stage leaves X where it is ... *)
Theorem C16_one_stage_consistent : forall f pr q delta X, n_s q = 1%Z ->
  (forall Y, length Y = length X -> gradlogpi f pr q Y None = Ok (vzero (length X))) ->
  K_recursion f pr q delta X 1 (vzero (length X)) = Ok X.
Proof.
  intros f pr q delta X Hs GZ. assert (LZ : length (vzero (length X)) = length X) by apply repeat_length.
  rewrite (C16_one_stage f pr q delta X _ (vzero (length X)) Hs LZ).
  - f_equal. clear. unfold vadd, vscal, vzero. induction X as [|x X IH]; simpl; [reflexivity|]. f_equal; [cplx|exact IH].
  - apply GZ. rewrite vadd_length; rewrite ?vscal_length; auto.
  - exact LZ.
Qed.
Print Assumptions C16_one_stage_consistent.

(** ... but for every s >= 2 the stationary point 0 moves, in every component by
    at least 1 *)
Theorem C16_not_consistent : forall f pr q s delta n, n_s q = Z.of_nat s -> (2 <= s)%nat -> (1 <= n)%nat ->
  (forall Y, length Y = n -> gradlogpi f pr q Y None = Ok (vzero n)) ->
  exists b, 1 <= Rabs b /\ K_recursion f pr q delta (vzero n) s (vzero n) = Ok (repeat (RtoC b) n) /\
    repeat (RtoC b) n <> vzero n.
Proof.
  intros f pr q s delta n Hs Hm Hn GZ. destruct (K_flat f pr q s delta n Hs Hm GZ) as (nu & N2 & N5 & K).
  destruct (drift_b_grows s Hm nu N2 N5 s ltac:(lia)) as (B & _). exists (drift_b nu s).
  split; [exact B|]. split; [apply K; lia|]. destruct n as [|n]; [lia|]. simpl. intros E. injection E as E _.
  rewrite E, Rabs_R0 in B. lra.
Qed.
Print Assumptions C16_not_consistent.

(** such posteriors exist: flat prior, zero measurement, zero data *)
Definition flat_fwd : forward_op :=
  mkFwd (mkData [RtoC 0] false) (scaled_identity 1 (RtoC 1)) "analysis" None
    (Some (mkMeas (fun _ => Ok [RtoC 0]) (fun _ => Ok [RtoC 0]))) (Some 1%nat).
Definition flat_prior : prior_obj := mkPrior (fun _ => Ok 0) (fun X => Ok X).
Lemma flat_gradient : forall q Y, length Y = 1%nat -> gradlogpi flat_fwd flat_prior q Y None = Ok (vzero 1).
Proof.
  intros q Y L. destruct Y as [|y [|]]; try discriminate.
  rewrite (gradlogpi_value flat_fwd flat_prior q [y] [RtoC 0] [y] [RtoC 0] None); auto.
  unfold langevin_drift, vsub, vscal, vzero; simpl. f_equal. f_equal. cplx.
Qed.
Theorem C16_consistency_refuted : forall s, (2 <= s)%nat -> exists f pr q X,
  n_s q = Z.of_nat s /\ (forall Y, length Y = length X -> gradlogpi f pr q Y None = Ok (vzero (length X))) /\
  (forall delta, exists X', K_recursion f pr q delta X s (vzero (length X)) = Ok X' /\ X' <> X).
Proof.
  intros s Hs. exists flat_fwd, flat_prior, (mkNum 1 1 (Z.of_nat s) false), (vzero 1).
  split; [reflexivity|]. split; [intros Y L; apply flat_gradient; auto|]. intros delta.
  destruct (C16_not_consistent flat_fwd flat_prior (mkNum 1 1 (Z.of_nat s) false) s delta 1 eq_refl Hs (le_n 1)) as (b & _ & E & N).
  - intros Y L. apply flat_gradient; auto.
  - eauto.
Qed.
Print Assumptions C16_consistency_refuted.

(** the wrong additive constant: for s = 2 the step from 0 is exactly 1 *)
Example C16_case : forall q delta, n_s q = 2%Z ->
  K_recursion flat_fwd flat_prior q delta [RtoC 0] 2 [RtoC 0] = Ok [RtoC 1].
Proof.
  intros q delta Hs.
  destruct (K_flat flat_fwd flat_prior q 2 delta 1 Hs (le_n 2)) as (nu & _ & _ & K); [intros; apply flat_gradient; auto|].
  specialize (K 2%nat (le_n 2)). unfold vzero in K; simpl repeat in K. rewrite K. simpl. f_equal. f_equal. f_equal. ring.
Qed.

(** ** C02: what the arrays of the numerical samplers hold *)

(** assigning the array x to a row of n entries: entry by entry, or one entry
    repeated; a real array keeps the real part only *)
Definition real_part (z : C) : C := (Re z, 0).
Definition assigned (n : nat) (keep : C -> C) (x row : vec) : Prop :=
  (length x = n /\ forall i, (i < n)%nat -> nth i row (RtoC 0) = keep (nth i x (RtoC 0))) /\ length row = n \/
  (exists z, x = [z] /\ row = repeat (keep z) n).
Definition row_holds {B} (arr : option (list B)) (j : nat) (what : B -> Prop) : Prop :=
  match arr with None => True | Some a => exists r, nth_error a j = Some r /\ what r end.

Lemma store_row_assigned : forall n keep x row, store_row n keep x = Ok row -> assigned n keep x row.
Proof.
  intros n keep x row E. unfold store_row in E. destruct (Nat.eqb_spec (length x) n) as [L|L].
  - apply Ok_inj in E. subst row. left. split; [|rewrite map_length; exact L]. split; [exact L|].
    intros i Hi. apply nth_map_in. rewrite L. exact Hi.
  - destruct x as [|z [|? ?]]; try discriminate. apply Ok_inj in E. subst row. right. eauto.
Qed.

Lemma rows_assigned : forall G (R0 : rng G) f pr q nV (s : inst vec vec C R) j x,
  fo_nparams f = Some nV -> row_true (mcmc_ops R0 f pr q) s j x ->
  exists d lp l2 p, fo_forward f x = Ok d /\ logpi f pr q x d = Ok (lp, l2, p) /\
    row_holds (i_chain s) j (assigned nV (if n_complex q then fun z => z else real_part) x) /\
    row_holds (i_preds s) j (assigned (length (d_val (fo_data f))) real_part d) /\
    row_holds (i_logPi s) j (fun r => r = real_part lp) /\
    row_holds (i_L2s s) j (fun r => r = real_part l2) /\
    row_holds (i_priors s) j (fun r => r = real_part p).
Proof.
  intros G R0 f pr q nV s j x HN (d & [[lp l2] p] & A & B & P1 & P2 & P3 & P4 & P5).
  exists d, lp, l2, p. split; [exact A|]. split; [exact B|].
  assert (K : forall a k, row_is a j (Ok (o_rowK (mcmc_ops R0 f pr q) k)) -> row_holds a j (fun r => r = real_part k)).
  { intros [a|] k H; [|exact I]. destruct H as (r & E & V). apply Ok_inj in V. exists r. split; [exact E|]. rewrite <- V. reflexivity. }
  split; [|split; [|split; [apply K; exact P1|split; [apply K; exact P2|apply K; exact P3]]]].
  - destruct (i_chain s) as [a|]; [|exact I]. destruct P5 as (r & E & V). exists r. split; [exact E|].
    cbn [mcmc_ops o_rowV] in V. rewrite HN in V. exact (store_row_assigned _ _ _ _ V).
  - destruct (i_preds s) as [a|]; [|exact I]. destruct P4 as (r & E & V). exists r. split; [exact E|].
    exact (store_row_assigned _ _ _ _ V).
Qed.

Theorem C02_stored_values : forall G (R0 : rng G) f pr q prm nV fuel start w w' n tune,
  fo_nparams f = Some nV -> sized (w_inst w) n -> p_nsamples prm = Z.of_nat n ->
  myula_run (mcmc_ops R0 f pr q) prm fuel start w = (w', Ret tt) \/
  pxmala_run (mcmc_ops R0 f pr q) prm tune fuel start w = (w', Ret tt) \/
  skrock_run (mcmc_ops R0 f pr q) prm fuel start w = (w', Ret tt) ->
  forall j, (j < n)%nat -> exists x d lp l2 p,
    fo_forward f x = Ok d /\ logpi f pr q x d = Ok (lp, l2, p) /\
    row_holds (i_chain (w_inst w')) j (assigned nV (if n_complex q then fun z => z else real_part) x) /\
    row_holds (i_preds (w_inst w')) j (assigned (length (d_val (fo_data f))) real_part d) /\
    row_holds (i_logPi (w_inst w')) j (fun r => r = real_part lp) /\
    row_holds (i_L2s (w_inst w')) j (fun r => r = real_part l2) /\
    row_holds (i_priors (w_inst w')) j (fun r => r = real_part p).
Proof.
  intros G R0 f pr q prm nV fuel start w w' n tune HN HS HP H j Hj.
  assert (T : exists x, row_true (mcmc_ops R0 f pr q) (w_inst w') j x).
  { destruct H as [H|[H|H]].
    - exact (C02_myula_rows _ _ _ _ _ _ _ _ _ _ _ _ _ HS HP H j Hj).
    - exact (C02_pxmala_rows _ _ _ _ _ _ _ _ _ _ _ _ _ _ HS HP H j Hj).
    - exact (C02_skrock_rows _ _ _ _ _ _ _ _ _ _ _ _ _ HS HP H j Hj). }
  destruct T as (x & T). exists x. exact (rows_assigned G R0 f pr q nV _ j x HN T).
Qed.
Print Assumptions C02_stored_values.

(** the iterate 2+3i is stored as 2 in a float chain, and a one-entry prediction
    fills the row *)
Example C02_case_cast : assigned 2 real_part [(2, 3); (1, 0)] [RtoC 2; RtoC 1] /\
  assigned 3 real_part [(2, 3)] [RtoC 2; RtoC 2; RtoC 2] /\ ~ assigned 2 real_part [(2, 3); (1, 0)] [(2, 3); RtoC 1].
Proof.
  split; [|split].
  - left. split; [|reflexivity]. split; [reflexivity|]. intros [|[|i]] Hi; [reflexivity|reflexivity|exfalso; lia].
  - right. exists (2, 3). split; reflexivity.
  - intros [[[_ H] _]|(z & E & _)]; [|discriminate]. specialize (H 0%nat ltac:(lia)). cbn in H. injection H. lra.
Qed.
