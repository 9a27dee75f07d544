(** C66: as the arithmetic becomes exact, whole runs with path integrals and the L1
    prior tend to the runs of the real-number model. *)
From Coq Require Import List ZArith Lia Bool Reals Lra Psatz String.
From Coquelicot Require Import Coquelicot.
From Verif Require Import PyBase PyBaseFacts CVec Forward Prior Mcmc Sampler ParamSpec RepSpec ParamProof Ieee IeeeProof ExactProof RoundProof FloatOps FloatProof FloatSk FloatSkProof StepProof
  LimProof LimOps LimRun LimTie LimInst LimSpec LimEnd LimSet P_Param P_FloatNear P_FloatSk P_Mcmc.
Import ListNotations.
Notation length := List.length.
Open Scope R_scope.

(** n pixels, paths W, data ys with errors sig, threshold t; real parameters *)
Record path_setup {G} (R0 : rng G) (n : nat) (W : list (list (nat * R))) (ys sig : list R) (t : R) (q : numparams) : Prop := {
  ps_rng : good_rng R0;
  ps_rand : forall g, 0 < fst (g_rand R0 g);
  ps_cols : in_cols n W;
  ps_ys : length ys = length W;
  ps_sig : length sig = length W;
  ps_nz : forall s, In s sig -> s <> 0;
  ps_t : 0 <= t;
  ps_lmda : 0 < n_lmda q;
  ps_real : n_complex q = false }.

(** the problem in floats, with the weights computed from the errors *)
Definition float_paths (rnd : R -> float) (n : nat) (W : list (list (nat * R))) (ys sig : list R) (t : R) : fl_problem :=
  f_paths rnd n (frows W) (map Fin ys) (f_weights rnd (map Fin sig)) (FScal (Fin t)).
(** and with real numbers *)
Definition exact_paths_fwd (n : nat) (W : list (list (nat * R))) (ys sig : list R) : forward_op :=
  path_fwd n W ys (map (fun s => 1 / (s * s)) sig).

Section Runs.
Context {G : Type}.
Variables (R0 : rng G) (n : nat) (W : list (list (nat * R))) (ys sig : list R) (t : R) (q : numparams).
Hypothesis PS : path_setup R0 n W ys sig t q.
Notation m := (length W).
Notation fops rnd := (fl_ops rnd (g_randn R0) (g_laplace R0) (g_rand R0) (float_paths rnd n W ys sig t) (Fin (n_lmda q)) (Fin (n_mu q))).
Notation sops rnd := (fl_sk_ops rnd (n_s q) (g_randn R0) (g_laplace R0) (g_rand R0) (float_paths rnd n W ys sig t) (Fin (n_lmda q)) (Fin (n_mu q))).
Notation real := (mcmc_ops R0 (exact_paths_fwd n W ys sig) (l1_prior t) q).

Lemma same_paths : same_problem n m (float_paths Fin n W ys sig t) (exact_paths_fwd n W ys sig) (l1_prior t).
Proof. destruct PS. apply C64_exact; auto. Qed.

Section Any.
Variables (start : start_point) (v : world vec vec C R G) (prm : params) (fuel : nat).
(** a run of the family of all settings *)
Variable mk : (R -> float) -> option fvec -> world fvec fvec float float G -> world fvec fvec float float G * outcome unit.
Variable goal : world vec vec C R G * outcome unit.
Hypothesis RUN : forall i1 v1, same_start n i1 start -> rel_world (same_vec n) (same_vec m) same_num same_step eq v1 v ->
  let near := nearby n m start v in
  exists s, rel_run (same_vec n) (same_vec m) same_num same_step eq s goal /\
  (limit (@setting G) near st_rnd -> (forall P, near P -> exists i, P i) ->
   TI setting near st_start i1 -> tworld setting near (TV setting near n) (TV setting near m) (TK setting near) (TP setting near) st_world v1 ->
   tops setting near (TV setting near n) (TV setting near m) (TK setting near) (TP setting near) (TK setting near) (fun i => sops (st_rnd i)) (sops Fin) (TI setting near) ->
   ((1 <= n_s q)%Z -> tskstep setting near (TV setting near n) (TP setting near) (fun i => sops (st_rnd i)) (sops Fin)) ->
   tat setting near (TV setting near n) (TV setting near m) (TK setting near) (TP setting near) (same setting near) (fun i => mk (st_rnd i) (st_start i) (st_world i)) s).

Lemma any_run : forall e, 0 < e -> exists d, 0 < d /\ forall rnd i w,
  accurate rnd (/ d) d -> near_start n d i start -> near_world n m d w v -> near_run n m e (mk rnd i w) goal.
Proof.
  intros e He.
  destruct (Classical_Prop.classic (exists i1 v1, same_start n i1 start /\ rel_world (same_vec n) (same_vec m) same_num same_step eq v1 v)) as [(i1 & v1 & HS & HV)|NO].
  2: { exists 1. split; [lra|]. intros rnd i w _ H1 H2. elim NO. destruct (start_ex _ _ _ _ H1) as (i1 & Hi). destruct (world_ex _ _ _ _ _ H2) as (v1 & Hv). eauto. }
  assert (LI := @nearby_limit G n m start v). assert (NE := nearby_inhabited n m start v i1 v1 HS HV).
  set (near := nearby n m start v) in *.
  assert (T1 : TI setting near st_start i1) by (apply (near_TI _ _ _ LI n _ _ start HS); apply setting_start).
  assert (T2 := proj2 (agree_world _ _ _ LI n m st_world v1 v HV) (setting_world n m start v)). fold near in T2.
  destruct PS as [GR HU IC LY LS NZ Ht Hl NC].
  assert (PT := paths_tend _ _ _ LI n W ys sig t LY LS NZ Ht).
  assert (L1 : forall k g, length (fst (g_randn R0 k g)) = k) by (intros k g; apply (GR k g)).
  assert (L2 : forall k g, length (fst (g_laplace R0 k g)) = k) by (intros k g; apply (GR k g)).
  assert (TO := limit_ops _ _ _ LI NE n m _ _ (n_lmda q) (n_mu q) PT Hl (g_randn R0) (g_laplace R0) (g_rand R0) L1 L2 HU (n_s q)).
  assert (TS : (1 <= n_s q)%Z -> tskstep setting near (TV setting near n) (TP setting near) (fun i => sops (st_rnd i)) (sops Fin)).
  { intros Hs. exact (limit_skstep _ _ _ LI NE n m _ _ (n_lmda q) (n_mu q) PT Hl (g_randn R0) (g_laplace R0) (g_rand R0) L1 (n_s q) (exact_coefs _ Hs)). }
  destruct (RUN i1 v1 HS HV) as (s & SR & TR). specialize (TR LI NE T1 T2 TO TS).
  destruct (near_runs _ _ _ LI n m _ _ _ TR SR e He) as (d & Hd & H). exists d. split; [exact Hd|]. intros rnd i w HA H1 H2.
  apply (H (mkSetting rnd i w)). split; [exact HA|]. split; [exact H1|exact H2].
Qed.
End Any.

(** *** MYULA: for every distance e there is an accuracy d of the arithmetic, the
    start point and the state of the sampler from which on the run ends alike, with
    arrays of the same shapes, entries at a distance of at most e, and the same
    lines printed up to e.  Any number of iterations *)
Theorem C66_myula : forall prm fuel start v e, 0 < e -> exists d, 0 < d /\ forall rnd i w,
  accurate rnd (/ d) d -> near_start n d i start -> near_world n m d w v ->
  near_run n m e (myula_run (fops rnd) prm fuel i w) (myula_run real prm fuel start v).
Proof.
  intros prm fuel start v e He. apply (any_run start v (fun rnd => myula_run (fops rnd) prm fuel)); [|exact He]. intros i1 v1 HS HV near.
  destruct PS as [GR HU IC LY LS NZ Ht Hl NC]. destruct (C59_exact_floats G R0 n m _ _ _ q prm false fuel i1 start v1 v GR HU same_paths NC Hl HS HV) as (A & _).
  exists (myula_run (fops Fin) prm fuel i1 v1). split; [exact A|]. intros LI NE T1 T2 TO TS.
  assert (CP := TP_closed _ _ _ LI). destruct LI as [N1 N2 N3 N4].
  assert (TO' : tops setting near (TV setting near n) (TV setting near m) (TK setting near) (TP setting near) (TK setting near) (fun i => fops (st_rnd i)) (fops Fin) (TI setting near)) by (destruct TO; constructor; assumption).
  exact (ts_myula _ _ N1 N2 N3 _ _ _ _ _ CP _ _ _ TO' prm fuel st_start i1 T1 st_world v1 T2).
Qed.

(** *** SKROCK, with at least one stage *)
Theorem C66_skrock : (1 <= n_s q)%Z -> forall prm fuel start v e, 0 < e -> exists d, 0 < d /\ forall rnd i w,
  accurate rnd (/ d) d -> near_start n d i start -> near_world n m d w v ->
  near_run n m e (skrock_run (sops rnd) prm fuel i w) (skrock_run real prm fuel start v).
Proof.
  intros Hs prm fuel start v e He. apply (any_run start v (fun rnd => skrock_run (sops rnd) prm fuel)); [|exact He]. intros i1 v1 HS HV near.
  destruct PS as [GR HU IC LY LS NZ Ht Hl NC]. assert (A := C65_exact_runs G R0 n m _ _ _ q prm fuel i1 start v1 v GR HU same_paths NC Hl HS HV).
  exists (skrock_run (sops Fin) prm fuel i1 v1). split; [exact A|]. intros LI NE T1 T2 TO TS.
  assert (CP := TP_closed _ _ _ LI). destruct LI as [N1 N2 N3 N4].
  exact (ts_skrock _ _ N1 N2 N3 _ _ _ _ _ CP _ _ _ TO prm (TS Hs) fuel st_start i1 T1 st_world v1 T2).
Qed.

(** *** PxMALA, unless a proposal of the exact run has log u = log alpha: the
    acceptances are the same *)
Theorem C66_pxmala : forall prm tune fuel start v e, no_ties real prm tune fuel start v -> 0 < e -> exists d, 0 < d /\ forall rnd i w,
  accurate rnd (/ d) d -> near_start n d i start -> near_world n m d w v ->
  near_run n m e (pxmala_run (fops rnd) prm tune fuel i w) (pxmala_run real prm tune fuel start v).
Proof.
  intros prm tune fuel start v e NTI He. apply (any_run start v (fun rnd => pxmala_run (fops rnd) prm tune fuel)); [|exact He]. intros i1 v1 HS HV near.
  destruct PS as [GR HU IC LY LS NZ Ht Hl NC].
  assert (RO := exact_ops R0 n m _ _ _ q GR HU same_paths NC Hl).
  assert (RO' : rel_ops (same_vec n) (same_vec m) same_num same_step eq (same_start n) (or_equal (fops Fin)) (or_equal real)).
  { destruct RO. constructor; try assumption. intros a a' b b' Ha Hb. cbn [or_equal o_kltb]. f_equal. now apply ro_kltb. }
  destruct (C59_parametric _ _ _ _ _ _ _ _ _ _ _ _ _ _ _ _ _ _ _ _ prm fuel i1 start v1 v RO HS HV) as (_ & A & _). specialize (A tune).
  destruct (C59_parametric _ _ _ _ _ _ _ _ _ _ _ _ _ _ _ _ _ _ _ _ prm fuel i1 start v1 v RO' HS HV) as (_ & A' & _). specialize (A' tune).
  exists (pxmala_run (fops Fin) prm tune fuel i1 v1). split; [exact A|]. intros LI NE T1 T2 TO TS.
  assert (CP := TP_closed _ _ _ LI). destruct LI as [N1 N2 N3 N4].
  assert (TO' : tops setting near (TV setting near n) (TV setting near m) (TK setting near) (TP setting near) (TK setting near) (fun i => fops (st_rnd i)) (fops Fin) (TI setting near)) by (destruct TO; constructor; assumption).
  apply (ts_pxmala _ _ N1 N2 N3 _ _ _ _ _ CP _ _ _ TO' prm tune fuel st_start i1 st_world v1 T1 T2).
  apply no_ties_calm. unfold no_ties in *. rewrite (ri_acc _ _ _ _ _ _ (proj1 (proj1 A))), (ri_acc _ _ _ _ _ _ (proj1 (proj1 A'))). exact NTI.
Qed.

(** *** the states to start from: samplers just made, with a step size near the
    exact one.  Any rounding *)
Theorem C66_new_sampler : forall rnd prm d d' e, 0 <= e -> near_step e (Fin d') d ->
  rel_res (rel_inst (near_vec n e) (near_vec m e) (near_num e) (near_step e)) (new_sampler (fops rnd) prm (Fin d')) (new_sampler real prm d) /\
  new_sampler (sops rnd) prm (Fin d') = new_sampler (fops rnd) prm (Fin d').
Proof.
  intros rnd prm d d' e He Hd. split; [|reflexivity].
  assert (ZV : forall k, near_vec k e (repeat (Fin 0) k) (vzero k)).
  { intros k. apply vec_near; [exact He|]. exists (repeat 0 k). split; [apply repeat_length|]. unfold vzero. split; induction k; cbn; congruence. }
  assert (ZK : near_num e (Fin 0) (RtoC 0)) by (apply num_near; [exact He|]; exists 0; auto).
  destruct PS as [GR HU IC LY LS NZ Ht Hl NC].
  assert (LD : length (map RtoC ys) = m) by now rewrite map_length. assert (LD' : length (map Fin ys) = m) by now rewrite map_length.
  unfold new_sampler, opt_array, np_zeros. cbn [fl_ops mcmc_ops o_zeroK o_zeroV o_zeroD float_paths f_paths fp_nparams fp_data exact_paths_fwd path_fwd fo_nparams num_of fo_data d_val].
  rewrite LD, LD'. assert (RN := ZV n). assert (RM := ZV m).
  destruct (p_nsamples prm <? 0)%Z;
    destruct (str_in "logposterior" _), (str_in "predictions" _), (str_in "chain" _), (str_in "L2" _), (str_in "prior" _);
    cbn; try reflexivity; constructor; cbn; auto using f2_repeat.
Qed.
End Runs.
Print Assumptions C66_myula.
Print Assumptions C66_skrock.
Print Assumptions C66_pxmala.
Print Assumptions C66_new_sampler.
