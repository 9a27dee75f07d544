(** Property C57: the operator calls of the samplers. *)
From Coq Require Import List ZArith Lia Bool Reals Lra String.
From Coquelicot Require Import Coquelicot.
From Verif Require Import PyBase CVec Thresh Utils Prior Forward Sampler SamplerSpec Mcmc McmcProof FwdProof StepProof
  Calls CallsSpec CallsProof P_Works.
Import ListNotations.
Open Scope Z_scope.

(** Methods whose results are those of pure operators, and whose effects leave
    the random generator alone, give the runs of Sampler.v and Mcmc.v: the same
    outcome, arrays, traces, printed lines and final generator. *)
Theorem C57_private_effects : forall E G (pi : E -> G) R0 f pr R1 u q prm tune fuel start w,
  private pi R0 f pr R1 u ->
  let below w := mkWorld (w_inst w) (pi (w_rng w)) in
  (myula_run (mcmc_ops R0 f pr q) prm fuel start (below w) =
     let (w', out) := myula_with R1 f u q prm fuel start w in (below w', out)) /\
  (pxmala_run (mcmc_ops R0 f pr q) prm tune fuel start (below w) =
     let (w', out) := pxmala_with R1 f u q prm tune fuel start w in (below w', out)) /\
  (skrock_run (mcmc_ops R0 f pr q) prm fuel start (below w) =
     let (w', out) := skrock_with R1 f u q prm fuel start w in (below w', out)).
Proof.
  intros E G pi R0 f pr R1 u q prm tune fuel start w HP below.
  destruct (private_runs pi R0 R1 f pr u q HP prm fuel start tune) as (A & B & C).
  split; [exact (A w)|]. split; [exact (B w)|exact (C w)].
Qed.
Print Assumptions C57_private_effects.

(** MYULA with any methods whatsoever: forward for the start, then in each
    iteration calc_gradg, proxf and forward once each in this order, and the
    prior once in the iterations that are saved.  A run that raises or is
    stopped has made a beginning of these calls. *)
Theorem C57_myula_calls : forall E (tr : E -> list meth) R1 f u q prm fuel start w w' out,
  logs tr R1 u -> myula_with R1 f u q prm fuel start w = (w', out) ->
  exists n l l1, calls_of [MGradg; MProxf; MForward] (p_nburn prm) (p_ngap prm) n l /\
    tr (w_rng w') = tr (w_rng w) ++ l1 /\ begins l1 (MForward :: l) /\
    (out = Ret tt -> l1 = MForward :: l /\
       forall N, p_nsamples prm = Z.of_nat N -> n = total_iters (p_nburn prm) (p_ngap prm) N).
Proof.
  intros E tr R1 f u q prm fuel start w w' out HL Hw.
  destruct (myula_logged tr R1 f u q HL prm fuel start w w' out Hw) as (k & l1 & T & B & HR).
  exists k, (trace_from prm [MGradg; MProxf; MForward] 0 k), l1. split; [apply trace_calls|]. split; [exact T|]. split; [exact B|].
  intros Ho. destruct (HR tt Ho) as (E1 & HF). split; [exact E1|]. intros N HN. now apply finished_total.
Qed.
Print Assumptions C57_myula_calls.

(** PxMALA: forward, calc_gradg, proxf and prior once each in this order, for
    the start and for every proposal, accepted or not; there is one entry of
    acceptance_trace per proposal. *)
Theorem C57_pxmala_calls : forall E (tr : E -> list meth) R1 f u q prm tune fuel start w w' out,
  logs tr R1 u -> pxmala_with R1 f u q prm tune fuel start w = (w', out) ->
  exists n l1, tr (w_rng w') = tr (w_rng w) ++ l1 /\
    begins l1 (List.concat (repeat [MForward; MGradg; MProxf; MPrior] (S n))) /\
    (out = Ret tt -> l1 = List.concat (repeat [MForward; MGradg; MProxf; MPrior] (S n)) /\
       exists a, i_acc (w_inst w') = Some a /\ List.length a = n).
Proof.
  intros E tr R1 f u q prm tune fuel start w w' out HL Hw.
  destruct (pxmala_logged tr R1 f u q HL prm tune fuel start w w' out Hw) as (k & l1 & T & B & HR).
  assert (TI : forall m, times m four = List.concat (repeat [MForward; MGradg; MProxf; MPrior] m)).
  { induction m as [|m IH]; [reflexivity|]. cbn [times repeat List.concat]. now rewrite IH. }
  exists k, l1. rewrite <- TI. split; [exact T|]. split; [exact B|]. intros Ho. exact (HR tt Ho).
Qed.
Print Assumptions C57_pxmala_calls.

(** SKROCK: forward for the start, then in each iteration the calls of the
    s-stage step and one forward, and the prior in the saved iterations. *)
Theorem C57_skrock_calls : forall E (tr : E -> list meth) R1 f u q prm fuel start w w' out,
  logs tr R1 u -> skrock_with R1 f u q prm fuel start w = (w', out) ->
  exists n l l1, calls_of (stage_calls (Z.to_nat (n_s q)) ++ [MForward]) (p_nburn prm) (p_ngap prm) n l /\
    tr (w_rng w') = tr (w_rng w) ++ l1 /\ begins l1 (MForward :: l) /\
    (out = Ret tt -> l1 = MForward :: l /\
       forall N, p_nsamples prm = Z.of_nat N -> n = total_iters (p_nburn prm) (p_ngap prm) N).
Proof.
  intros E tr R1 f u q prm fuel start w w' out HL Hw.
  destruct (skrock_logged tr R1 f u q HL prm fuel start w w' out Hw) as (k & l1 & T & B & HR).
  eexists k, _, l1. split; [apply trace_calls|]. split; [exact T|]. split; [exact B|].
  intros Ho. destruct (HR tt Ho) as (E1 & HF). split; [exact E1|]. intros N HN. now apply finished_total.
Qed.
Print Assumptions C57_skrock_calls.

(** ** totals *)

Lemma calls_app m a b : calls m (a ++ b) = (calls m a + calls m b)%nat.
Proof. unfold calls. apply count_occ_app. Qed.

Lemma calls_of_trace blk b g n l : calls_of blk b g n l ->
  l = trace_from (Build_params 0 b g 0 []) blk 0 n.
Proof.
  induction 1 as [|n l H IH Hg|n l H IH Hg]; [reflexivity| |]; rewrite trace_snoc, Z.add_0_l, <- IH;
    pose proof (saves_on_grid (Build_params 0 b g 0 []) (Z.of_nat n) ltac:(lia)) as HS; cbn [p_nburn p_ngap] in HS;
    destruct (MyulaProof.saves _ _).
  - reflexivity.
  - apply HS in Hg. discriminate.
  - exfalso. apply Hg, HS. reflexivity.
  - now rewrite app_nil_r.
Qed.

Lemma calls_trace m prm blk n : calls m (trace_from prm blk 0 n) =
  (n * calls m blk + if meth_eq_dec m MPrior then List.length (LoopProof.saved_idx prm 0 n) else 0)%nat.
Proof.
  induction n as [|n IH]; [destruct (meth_eq_dec m MPrior); reflexivity|].
  rewrite trace_snoc, !calls_app, IH, ScheduleProof.saved_idx_snoc, app_length.
  destruct (MyulaProof.saves prm (0 + Z.of_nat n)), m; cbn; lia.
Qed.

(** Over a whole run of N saved samples each method is called as often as in one
    iteration times the number of iterations, and the prior N times more. *)
Theorem C57_totals : forall blk b g N l m,
  calls_of blk b g (total_iters b g N) l ->
  calls m l = (total_iters b g N * calls m blk + if meth_eq_dec m MPrior then N else 0)%nat.
Proof.
  intros blk b g N l m H. apply calls_of_trace in H. subst l. rewrite calls_trace. f_equal.
  destruct (meth_eq_dec m MPrior); [|reflexivity].
  set (prm := Build_params 0 b g 0 []). destruct (ScheduleProof.saved_idx_closed prm (total_iters b g N)) as (_ & A & B).
  cbv zeta in A, B. cbn [p_nburn p_ngap prm] in A, B. fold prm in A, B.
  set (c := List.length (LoopProof.saved_idx prm 0 (total_iters b g N))) in *.
  destruct N as [|N].
  - cbn [total_iters] in B. destruct c; [reflexivity|]. specialize (B O ltac:(lia)). cbn in B. lia.
  - unfold total_iters in A, B. pose proof (ScheduleProof.save_iter_nonneg b g N) as HN.
    pose proof (ScheduleProof.save_iter_nonneg b g c) as Hc.
    destruct (lt_eq_lt_dec c (S N)) as [[L|L]|L]; [|exact L|].
    + exfalso. assert (c <= N)%nat as L2 by lia. destruct (Nat.eq_dec c N) as [->|].
      * lia.
      * pose proof (ScheduleProof.save_iter_lt b g c N ltac:(lia)). lia.
    + exfalso. specialize (B (S N) L). pose proof (ScheduleProof.save_iter_lt b g N (S N) ltac:(lia)). lia.
Qed.
Print Assumptions C57_totals.

(** ** the cost of an SKROCK step *)

(** number of gradient evaluations of an s-stage step *)
Theorem C57_stage_cost : forall s,
  let c := fun s => calls MGradg (stage_calls s) in
  (calls MForward (stage_calls s) = c s /\ calls MProxf (stage_calls s) = c s /\ calls MPrior (stage_calls s) = 0)%nat /\
  (c 0 = 0 /\ c 1 = 1 /\ c (S (S s)) = 1 + 2 * c (S s) + c s)%nat /\
  (2 ^ s <= c s + 1)%nat.
Proof.
  intros s c.
  assert (REC : forall m s, calls m (stage_calls (S (S s))) =
            (calls m gradient + 2 * calls m (stage_calls (S s)) + calls m (stage_calls s))%nat).
  { intros m s0. change (stage_calls (S (S s0))) with
      (stage_calls (S s0) ++ gradient ++ stage_calls (S s0) ++ stage_calls s0). rewrite !calls_app. lia. }
  split; [|split].
  - unfold c. induction s as [s IH] using lt_wf_ind. destruct s as [|[|s]]; [repeat split|repeat split|].
    destruct (IH (S s) ltac:(lia)) as (A1 & A2 & A3). destruct (IH s ltac:(lia)) as (B1 & B2 & B3).
    rewrite !REC, A1, A2, A3, B1, B2, B3. cbn [calls gradient count_occ]. repeat split.
  - split; [reflexivity|]. split; [reflexivity|]. unfold c. rewrite REC. reflexivity.
  - induction s as [s IH] using lt_wf_ind. destruct s as [|[|s]]; [cbn; lia|cbn; lia|].
    pose proof (IH (S s) ltac:(lia)) as A. unfold c in *. rewrite REC. change (calls MGradg gradient) with 1%nat.
    change (2 ^ S (S s))%nat with (2 * 2 ^ S s)%nat. lia.
Qed.
Print Assumptions C57_stage_cost.

(** An s-stage method needs s gradients; for s = 10, the value of the two
    experiments (earthtopography/main.py:132, phasevel/main.py:155), the code
    evaluates 4059, and for every s > 1 more than s. *)
Theorem C57_s_gradients_refuted :
  (exists s, calls MGradg (stage_calls s) <> s) /\
  calls MGradg (stage_calls 10) = 4059%nat /\
  forall s, (1 < s)%nat -> (s < calls MGradg (stage_calls s))%nat.
Proof.
  assert (A : calls MGradg (stage_calls 10) = 4059%nat) by (vm_compute; reflexivity).
  split; [exists 2%nat; cbn; lia|]. split; [exact A|]. intros s Hs.
  destruct (C57_stage_cost s) as (_ & _ & HB). cbv zeta in HB.
  assert (P : forall t, (t + 3 <= 2 ^ (t + 1 + 1))%nat).
  { induction t as [|t IH]; [cbn; lia|]. replace (S t + 1 + 1)%nat with (S (t + 1 + 1)) by lia. cbn [Nat.pow]. lia. }
  specialize (P (s - 2)%nat). replace (s - 2 + 1 + 1)%nat with s in P by lia.
  destruct (Nat.eq_dec s 2) as [->|]; [cbn; lia|].
  assert (P2 : forall t, (t + 5 <= 2 ^ (t + 3))%nat).
  { induction t as [|t IH]; [cbn; lia|]. replace (S t + 3)%nat with (S (t + 3)) by lia. cbn [Nat.pow]. lia. }
  specialize (P2 (s - 3)%nat). replace (s - 3 + 3)%nat with s in P2 by lia. lia.
Qed.
Print Assumptions C57_s_gradients_refuted.

(** ** such methods exist *)

(** pure operators with a counter beside the generator *)
Definition count_ops {G} (f : forward_op) (pr : prior_obj) : user_ops (G * list meth) :=
  mkUser (fun x e => (fo_forward f x, (fst e, snd e ++ [MForward])))
         (fun x e => (fo_gradg f x, (fst e, snd e ++ [MGradg])))
         (fun x e => (pr_proxf pr x, (fst e, snd e ++ [MProxf])))
         (fun x e => (pr_prior pr x, (fst e, snd e ++ [MPrior]))).
Definition count_rng {G} (R0 : rng G) : rng (G * list meth) :=
  mkRng (fun n e => let (a, g) := g_randn R0 n (fst e) in (a, (g, snd e)))
        (fun n e => let (a, g) := g_laplace R0 n (fst e) in (a, (g, snd e)))
        (fun e => let (a, g) := g_rand R0 (fst e) in (a, (g, snd e))).

Theorem C57_counters : forall G (R0 : rng G) f pr,
  logs snd (count_rng R0) (count_ops f pr) /\ private fst R0 f pr (count_rng R0) (count_ops f pr).
Proof.
  intros G R0 f pr. split.
  - do 4 (split; [reflexivity|]). split; [|split].
    + intros n e; cbn. destruct (g_randn R0 n (fst e)); reflexivity.
    + intros n e; cbn. destruct (g_laplace R0 n (fst e)); reflexivity.
    + intros e; cbn. destruct (g_rand R0 (fst e)); reflexivity.
  - do 4 (split; [intros; split; reflexivity|]). split; [|split].
    + intros n e; cbn. destruct (g_randn R0 n (fst e)); split; reflexivity.
    + intros n e; cbn. destruct (g_laplace R0 n (fst e)); split; reflexivity.
    + intros e; cbn. destruct (g_rand R0 (fst e)); split; reflexivity.
Qed.
Print Assumptions C57_counters.

(** On a problem whose shapes fit, runs with counters end after the scheduled
    iterations and the counters show the totals. *)
Theorem C57_counted_runs : forall G (R0 : rng G) f pr q prm fuel start s g n m N,
  good_rng R0 -> shapes_fit f pr n m -> n_lmda q <> 0%R -> start_fits start n ->
  sized s N -> p_nsamples prm = Z.of_nat N -> ~ line_array_missing s ->
  let T := total_iters (p_nburn prm) (p_ngap prm) N in
  let c := calls MGradg (stage_calls (Z.to_nat (n_s q))) in
  (T <= fuel)%nat ->
  (exists w', myula_with (count_rng R0) f (count_ops f pr) q prm fuel start (mkWorld s (g, [])) = (w', Ret tt) /\
     calls MForward (snd (w_rng w')) = S T /\ calls MGradg (snd (w_rng w')) = T /\
     calls MProxf (snd (w_rng w')) = T /\ calls MPrior (snd (w_rng w')) = N) /\
  (exists w', skrock_with (count_rng R0) f (count_ops f pr) q prm fuel start (mkWorld s (g, [])) = (w', Ret tt) /\
     calls MForward (snd (w_rng w')) = S (T * (c + 1)) /\ calls MGradg (snd (w_rng w')) = (T * c)%nat /\
     calls MProxf (snd (w_rng w')) = (T * c)%nat /\ calls MPrior (snd (w_rng w')) = N).
Proof.
  intros G R0 f pr q prm fuel start s g n m N GR SF NZ ST SZ EN LM T c HT.
  destruct (C57_counters G R0 f pr) as (HL & HP).
  destruct (C01_numerical_runs_end G R0 f pr q prm fuel start (mkWorld s g) n m N GR SF NZ ST SZ EN LM) as ((_ & A) & (_ & B)).
  destruct (A HT) as (wa & Ea). destruct (B HT) as (wb & Eb). clear A B.
  destruct (C57_private_effects _ _ fst R0 f pr (count_rng R0) (count_ops f pr) q prm false fuel start (mkWorld s (g, [])) HP)
    as (A & _ & B). cbv zeta in A, B. cbn [w_inst w_rng fst] in A, B. split.
  - rewrite Ea in A. destruct (myula_with _ f _ q prm fuel start (mkWorld s (g, []))) as [w' out] eqn:Ew.
    injection A as _ <-. exists w'. split; [reflexivity|].
    destruct (C57_myula_calls _ snd _ f _ q prm fuel start _ _ _ HL Ew) as (k & l & l1 & HC & HT1 & _ & HR).
    destruct (HR eq_refl) as (-> & HK). rewrite (HK N EN) in HC. cbn [w_rng snd app] in HT1. rewrite HT1.
    change (MForward :: l) with ([MForward] ++ l). rewrite !calls_app, !(C57_totals _ _ _ _ _ _ HC). fold T.
    repeat split; cbn; lia.
  - rewrite Eb in B. destruct (skrock_with _ f _ q prm fuel start (mkWorld s (g, []))) as [w' out] eqn:Ew.
    injection B as _ <-. exists w'. split; [reflexivity|].
    destruct (C57_skrock_calls _ snd _ f _ q prm fuel start _ _ _ HL Ew) as (k & l & l1 & HC & HT1 & _ & HR).
    destruct (HR eq_refl) as (-> & HK). rewrite (HK N EN) in HC. cbn [w_rng snd app] in HT1. rewrite HT1.
    change (MForward :: l) with ([MForward] ++ l). rewrite !calls_app, !(C57_totals _ _ _ _ _ _ HC), !calls_app. fold T.
    destruct (C57_stage_cost (Z.to_nat (n_s q))) as ((C1 & C2 & C3) & _). cbv zeta in C1, C2. fold c in C1, C2.
    rewrite C1, C2, C3. fold c. repeat split; cbn -[Nat.mul]; lia.
Qed.
Print Assumptions C57_counted_runs.

(** 3 samples, burn-in 2, stride 2: 7 iterations; one parameter, 10 stages *)
Example C57_case : forall G (R0 : rng G) g, good_rng R0 ->
  let f := unit_fwd (RtoC 1) in let q := mkNum (1 / 2) (1 / 2) 10 false in
  let prm := Build_params 3 2 2 5 ["logposterior"; "L2"; "prior"; "chain"]%string in
  exists s0, new_sampler (mcmc_ops R0 f abs_prior q) prm (1 / 8)%R = Ok s0 /\
  (exists w', myula_with (count_rng R0) f (count_ops f abs_prior) q prm 7 StartNone (mkWorld s0 (g, [])) = (w', Ret tt) /\
     calls MForward (snd (w_rng w')) = 8%nat /\ calls MGradg (snd (w_rng w')) = 7%nat /\
     calls MProxf (snd (w_rng w')) = 7%nat /\ calls MPrior (snd (w_rng w')) = 3%nat) /\
  (exists w', skrock_with (count_rng R0) f (count_ops f abs_prior) q prm 7 StartNone (mkWorld s0 (g, [])) = (w', Ret tt) /\
     Z.of_nat (calls MGradg (snd (w_rng w'))) = 28413).
Proof.
  intros G R0 g GR f q prm.
  destruct (C01_numerical_case G R0 g 7 GR) as (SF & _).
  eexists. split; [reflexivity|].
  match goal with |- (exists w', myula_with _ _ _ _ _ _ _ (mkWorld ?s _) = _ /\ _) /\ _ => set (s0 := s) end.
  destruct (C57_counted_runs G R0 f abs_prior q prm 7 StartNone s0 g 1 1 3 GR SF) as (A & B).
  - cbn; lra.
  - exact I.
  - unfold sized, s0. cbn. auto 10.
  - reflexivity.
  - unfold line_array_missing, s0. cbn. intros [H|[H|H]]; discriminate.
  - apply le_n.
  - split; [exact A|]. destruct B as (w' & B1 & _ & B2 & _). exists w'. split; [exact B1|].
    rewrite B2. change (Z.to_nat (n_s q)) with 10%nat. rewrite (proj1 (proj2 C57_s_gradients_refuted)).
    change (total_iters (p_nburn prm) (p_ngap prm) 3) with 7%nat. rewrite Nat2Z.inj_mul. reflexivity.
Qed.
