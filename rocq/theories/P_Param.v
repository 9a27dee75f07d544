(** C59: what the samplers do does not depend on how their data are represented. *)
From Coq Require Import List ZArith Lia Bool Reals Lra String Permutation.
From Coquelicot Require Import Coquelicot.
From Verif Require Import PyBase PyBaseFacts CVec Forward FwdProof RSort Prior Mcmc StepProof MeasProof Sampler SamplerSpec
  ParamSpec ParamProof Ieee IeeeProof RepSpec ExactProof PermProof P_Works P_Ieee.
Import ListNotations.
Open Scope R_scope.

(** *** Related operations, start values and worlds give related runs: the same
    outcome, related arrays, traces and printed lines *)
Theorem C59_parametric : forall V1 D1 K1 P1 G1 I1 V2 D2 K2 P2 G2 I2
  (RV : V1 -> V2 -> Prop) (RD : D1 -> D2 -> Prop) (RK : K1 -> K2 -> Prop) (RP : P1 -> P2 -> Prop) (RG : G1 -> G2 -> Prop) (RI : I1 -> I2 -> Prop)
  (o : ops V1 D1 K1 P1 G1 I1) (u : ops V2 D2 K2 P2 G2 I2) prm fuel start start' w v,
  rel_ops RV RD RK RP RG RI o u -> RI start start' -> rel_world RV RD RK RP RG w v ->
  rel_run RV RD RK RP RG (myula_run o prm fuel start w) (myula_run u prm fuel start' v) /\
  (forall tune, rel_run RV RD RK RP RG (pxmala_run o prm tune fuel start w) (pxmala_run u prm tune fuel start' v)) /\
  (rel_skstep RV RP RG o u -> rel_run RV RD RK RP RG (skrock_run o prm fuel start w) (skrock_run u prm fuel start' v)) /\
  (forall d d', RP d d' -> rel_res (rel_inst RV RD RK RP) (new_sampler o prm d) (new_sampler u prm d')).
Proof.
  intros V1 D1 K1 P1 G1 I1 V2 D2 K2 P2 G2 I2 RV RD RK RP RG RI o u prm fuel start start' w v HO HI HW.
  assert (C : forall m m', psim RV RD RK RP RG eq m m' -> rel_run RV RD RK RP RG (m w) (m' v)).
  { intros m m' H. destruct (H w v HW) as (A & B). split; [exact A|].
    destruct (snd (m w)), (snd (m' v)); cbn in B; try contradiction; congruence. }
  split; [|split; [|split]].
  - apply C. eapply ps_myula; eassumption.
  - intros tune. apply C. eapply ps_pxmala; eassumption.
  - intros HS. apply C. eapply ps_skrock; eassumption.
  - intros d d' Hd. eapply new_rel; eassumption.
Qed.
Print Assumptions C59_parametric.

(** *** Floats with exact arithmetic: MYULA and PxMALA make the run of the
    real-number model.  Draws are in (0,1), lmda and the step size positive,
    parameters real. *)
Theorem C59_exact_floats : forall G (R0 : rng G) n m f F pr q prm tune fuel i j w v,
  (forall k g, List.length (fst (g_randn R0 k g)) = k /\ List.length (fst (g_laplace R0 k g)) = k) ->
  (forall g, 0 < fst (g_rand R0 g)) -> same_problem n m f F pr -> n_complex q = false -> 0 < n_lmda q ->
  same_start n i j -> rel_world (same_vec n) (same_vec m) same_num same_step eq w v ->
  let o := fl_ops Fin (g_randn R0) (g_laplace R0) (g_rand R0) f (Fin (n_lmda q)) (Fin (n_mu q)) in
  let u := mcmc_ops R0 F pr q in
  rel_run (same_vec n) (same_vec m) same_num same_step eq (myula_run o prm fuel i w) (myula_run u prm fuel j v) /\
  rel_run (same_vec n) (same_vec m) same_num same_step eq (pxmala_run o prm tune fuel i w) (pxmala_run u prm tune fuel j v) /\
  (forall d, 0 < d -> rel_res (rel_inst (same_vec n) (same_vec m) same_num same_step) (new_sampler o prm (Fin d)) (new_sampler u prm d)).
Proof.
  intros G R0 n m f F pr q prm tune fuel i j w v HG HU HP HC HL HI HW o u.
  pose proof (exact_ops R0 n m f F pr q HG HU HP HC HL) as HO.
  destruct (C59_parametric _ _ _ _ _ _ _ _ _ _ _ _ _ _ _ _ _ _ o u prm fuel i j w v HO HI HW) as (A & B & _ & D).
  split; [exact A|]. split; [exact (B tune)|]. intros d Hd. apply D. split; [reflexivity|exact Hd].
Qed.
Print Assumptions C59_exact_floats.

Lemma f2_eq {A} (l m : list A) : Forall2 eq l m -> l = m.
Proof. intros F. induction F; congruence. Qed.
Lemma arr_eq {A} (a b : option (list A)) : rel_arr eq a b -> a = b.
Proof. destruct a, b; cbn; try contradiction; [|reflexivity]. intros F. f_equal. now apply f2_eq. Qed.
Lemma events_eq {K} (l m : list (event K)) : Forall2 (rel_event eq) l m -> l = m.
Proof. intros F. induction F as [|a b l m H F IH]; [reflexivity|]. subst. f_equal. destruct H; congruence. Qed.
Lemma eq_arr {A} (a : option (list A)) : rel_arr eq a a.
Proof. destruct a as [l|]; cbn; [|exact I]. induction l; constructor; auto. Qed.
Lemma eq_events {K} (l : list (event K)) : Forall2 (rel_event eq) l l.
Proof. induction l as [|a l IH]; constructor; auto. destruct a; constructor; reflexivity. Qed.
Lemma rv_arr n sigma a b : rel_arr (rv n sigma) a b -> b = option_map (map (reorder n sigma (RtoC 0))) a.
Proof.
  destruct a as [l|], b as [m|]; cbn; try contradiction; [|reflexivity]. intros F. f_equal.
  induction F as [|x y l m (_ & ->) F IH]; [reflexivity|]. cbn. now rewrite IH.
Qed.

(** *** The order of the parameters does not matter: the same outcome, log
    posteriors, predictions, acceptances, step sizes and output; the rows of the
    chain are reordered.  [w] is the world of a sampler whose chain has rows of
    length n. *)
Theorem C59_reordered : forall G n sigma (R0 R1 : rng G) F F' pr pr' q prm tune fuel start start' s g,
  reordered n sigma R0 R1 F F' pr pr' -> rstart n sigma start start' ->
  (forall rows, i_chain s = Some rows -> List.Forall (fun x => List.length x = n) rows) ->
  let o := mcmc_ops R0 F pr q in
  let u := mcmc_ops R1 F' pr' q in
  let w := mkWorld s g in
  let v := mkWorld (set_chain (option_map (map (reorder n sigma (RtoC 0))) (i_chain s)) s) g in
  let claim (r r' : world vec vec C R G * outcome unit) :=
    snd r' = snd r /\ w_rng (fst r') = w_rng (fst r) /\
    w_inst (fst r') = set_chain (option_map (map (reorder n sigma (RtoC 0))) (i_chain (w_inst (fst r)))) (w_inst (fst r)) in
  claim (myula_run o prm fuel start w) (myula_run u prm fuel start' v) /\
  claim (pxmala_run o prm tune fuel start w) (pxmala_run u prm tune fuel start' v) /\
  claim (skrock_run o prm fuel start w) (skrock_run u prm fuel start' v).
Proof.
  intros G n sigma R0 R1 F F' pr pr' q prm tune fuel start start' s g HR HI HC o u w v claim.
  pose proof (rd_perm _ _ _ _ _ _ _ _ HR) as HS.
  pose proof (rd_ops n sigma HS R0 R1 F F' pr pr' HR q) as HO.
  assert (HK : rel_skstep (rv n sigma) eq eq o u).
  { intros p p' x x' g0 g0' <- Hx <-. now apply rd_skstep. }
  assert (HW : rel_world (rv n sigma) eq eq eq eq w v).
  { split; [|reflexivity]. constructor; cbn; auto using eq_arr, eq_events.
    destruct (i_chain s) as [rows|]; cbn; [|exact I]. specialize (HC rows eq_refl).
    induction HC; cbn; constructor; auto. split; auto. }
  assert (CL : forall r r', rel_run (rv n sigma) eq eq eq eq r r' -> claim r r').
  { intros [w1 a1] [w2 a2] ((HIn & Hg) & Ha). cbn [fst snd] in *. split; [now symmetry|]. split; [now symmetry|].
    destruct HIn as [A1 A2 A3 A4 A5 A6 A7 A8 A9]. destruct w1 as [s1 g1], w2 as [s2 g2]. cbn [fst snd w_inst] in *.
    apply arr_eq in A1, A2, A3, A4, A7. apply events_eq in A9. apply rv_arr in A5. destruct s1, s2. cbn in *. subst. reflexivity. }
  destruct (C59_parametric _ _ _ _ _ _ _ _ _ _ _ _ _ _ _ _ _ _ o u prm fuel start start' w v HO HI HW) as (A & B & D & _).
  split; [exact (CL _ _ A)|]. split; [exact (CL _ _ (B tune))|exact (CL _ _ (D HK))].
Qed.
Print Assumptions C59_reordered.

(** one parameter, identity operator, datum 1, as in C58_case *)
Definition half_prior : prior_obj := mkPrior (fun X => Ok (rsum (map Re X))) (fun X => Ok (vscal (RtoC (1 / 2)) X)).
Lemma unit_same : same_problem 1 1 unit_float (unit_fwd (RtoC 1)) half_prior.
Proof.
  assert (ID : forall k x y, same_vec k x y -> rel_res (same_vec k) (Ok x) (Ok y)) by (intros k x y H; exact H).
  constructor.
  - reflexivity.
  - reflexivity.
  - exists [1]. auto.
  - exists [[(0%nat, 1)]]. split; [reflexivity|]. split; [repeat constructor|]. split; [reflexivity|]. split; [reflexivity|]. split; [reflexivity|].
    intros i j Hi Hj. assert (i = 0%nat) by lia. assert (j = 0%nat) by lia. subst. cbn. f_equal. ring.
  - intros x y H. cbn. now apply ID.
  - intros x y (v & L & -> & ->). destruct v as [|a [|? ?]]; try discriminate. cbn. exists [a - 1]. split; [reflexivity|]. split; [reflexivity|].
    cbn. f_equal. cplx.
  - intros x y (v & L & -> & ->). cbn. exists (map (Rmult (1 / 2)) v). split; [now rewrite map_length|].
    split; [apply fscal_fin|apply vscal_r].
  - intros x y (v & L & -> & ->). cbn. rewrite fsum_fin, map_map. cbn. now rewrite map_id.
Qed.

Example C59_exact_case : forall (R0 : rng unit) tune fuel,
  (forall k g, List.length (fst (g_randn R0 k g)) = k /\ List.length (fst (g_laplace R0 k g)) = k) ->
  (forall g, 0 < fst (g_rand R0 g)) ->
  let q := mkNum 1 1 3 false in
  let o := fl_ops Fin (g_randn R0) (g_laplace R0) (g_rand R0) unit_float (Fin 1) (Fin 1) in
  let u := mcmc_ops R0 (unit_fwd (RtoC 1)) half_prior q in
  exists s t, new_sampler o unit_prm (Fin (1 / 2)) = Ok s /\ new_sampler u unit_prm (1 / 2) = Ok t /\
  rel_run (same_vec 1) (same_vec 1) same_num same_step eq
    (pxmala_run o unit_prm tune fuel (Some [Fin 3]) (mkWorld s tt)) (pxmala_run u unit_prm tune fuel (StartArray [1%nat] [RtoC 3]) (mkWorld t tt)).
Proof.
  intros R0 tune fuel HG HU q o u.
  pose proof (exact_ops R0 1 1 unit_float (unit_fwd (RtoC 1)) half_prior q HG HU unit_same eq_refl) as HO.
  cbn [n_lmda n_mu q] in HO. specialize (HO ltac:(lra)).
  assert (NS := new_rel _ _ _ _ _ _ o u HO unit_prm (Fin (1 / 2)) (1 / 2) ltac:(split; [reflexivity|lra])).
  destruct (new_sampler o unit_prm (Fin (1 / 2))) as [s|] eqn:Es; [|discriminate Es].
  destruct (new_sampler u unit_prm (1 / 2)) as [t|] eqn:Et; [|discriminate Et]. cbn in NS.
  exists s, t. split; [reflexivity|]. split; [reflexivity|].
  apply (C59_exact_floats unit R0 1 1 unit_float (unit_fwd (RtoC 1)) half_prior q unit_prm tune fuel); auto.
  - exact unit_same.
  - cbn. lra.
  - split; [reflexivity|]. exists [3]. auto.
  - split; [exact NS|reflexivity].
Qed.

(** two parameters swapped: identity measurement against the swap *)
Definition swap (i : nat) : nat := (1 - i)%nat.
Definition two_fwd (ms : measurement) : forward_op :=
  mkFwd (mkData [RtoC 1; RtoC 5] false) (scaled_identity 2 (RtoC 1)) "analysis" None (Some ms) (Some 2%nat).
Definition swap_meas : measurement :=
  mkMeas (fun x => Ok (reorder 2 swap (RtoC 0) x)) (fun x => Ok (reorder 2 swap (RtoC 0) x)).
Definition swap_rng (R0 : rng unit) : rng unit :=
  mkRng (fun k g => let (a, g') := g_randn R0 k g in (reorder k swap 0 a, g'))
        (fun k g => let (a, g') := g_laplace R0 k g in (reorder k swap 0 a, g')) (g_rand R0).

Example C59_swap_case : forall (R0 : rng unit),
  (forall g, List.length (fst (g_randn R0 2 g)) = 2%nat /\ List.length (fst (g_laplace R0 2 g)) = 2%nat) ->
  reordered 2 swap R0 (swap_rng R0) (two_fwd id_meas) (two_fwd swap_meas) half_prior half_prior /\
  reorder 2 swap (RtoC 0) [RtoC 3; RtoC 4] = [RtoC 4; RtoC 3] /\
  rstart 2 swap (StartArray [2%nat] [RtoC 3; RtoC 4]) (StartArray [2%nat] [RtoC 4; RtoC 3]).
Proof.
  intros R0 HL.
  assert (INV : forall x : vec, List.length x = 2%nat -> reorder 2 swap (RtoC 0) (reorder 2 swap (RtoC 0) x) = x).
  { intros [|a [|b [|c x]]] L; try discriminate. reflexivity. }
  split; [|split; [reflexivity|]].
  2:{ cbn. split; [reflexivity|]. left. split; reflexivity. }
  constructor.
  - unfold is_permutation. cbn. apply perm_swap.
  - reflexivity.
  - reflexivity.
  - reflexivity.
  - reflexivity.
  - intros x L. cbn -[reorder]. now rewrite INV.
  - intros d. unfold fo_gradg, gradg_analysis, two_fwd. cbn -[np_sub np_dot reorder].
    destruct (np_sub d _) as [r|]; cbn -[np_dot reorder]; [|reflexivity].
    unfold np_dot. destruct (Nat.eqb _ _); cbn -[reorder matvec]; [|reflexivity]. split; [|reflexivity]. rewrite matvec_length. reflexivity.
  - intros x L. cbn -[reorder]. unfold vscal. split; [now rewrite map_length|].
    f_equal. destruct x as [|a [|b [|? ?]]]; try discriminate. reflexivity.
  - intros x L. cbn -[reorder]. f_equal. destruct x as [|a [|b [|? ?]]]; try discriminate. cbn. ring.
  - exact HL.
  - intros g. cbn. destruct (g_randn R0 2 g). reflexivity.
  - intros g. cbn. destruct (g_laplace R0 2 g). reflexivity.
  - reflexivity.
Qed.
