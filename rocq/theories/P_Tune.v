(** C71: the acceptance rate that the tuning of PxMALA leads to. *)
From Coq Require Import List ZArith Lia Bool Reals Lra String.
From Coquelicot Require Import Coquelicot.
From Verif Require Import PyBase CVec Thresh Prior Forward Sampler SamplerSpec SamplerMain Mcmc McmcSpec McmcProof
  StepProof MeasProof P_Samplers P_Mcmc P_Works RSort TuneSpec TuneProof.
Import ListNotations.
Open Scope R_scope.
Notation length := List.length.

Lemma run_history : forall G (R0 : rng G) f pr q prm fuel start w w' n r accs trace,
  0 < n_lmda q -> sized (w_inst w) n -> p_nsamples prm = Z.of_nat n ->
  pxmala_run (mcmc_ops R0 f pr q) prm true fuel start w = (w', r) -> (r = Ret tt \/ r = NoFuel) ->
  i_acc (w_inst w') = Some accs -> i_deltas (w_inst w') = Some trace ->
  exists ds, trace = i_delta (w_inst w) :: ds /\ tuned_history (n_lmda q) (i_delta (w_inst w)) accs ds.
Proof.
  intros G R0 f pr q prm fuel start w w' n r accs trace L HS HN E RE EA ED.
  destruct (C07_tuned G R0 f pr q prm fuel start w w' n r L HS HN E RE) as (accs' & ds & A & D & _ & T & _).
  exists ds. rewrite EA in A. rewrite ED in D. injection A as ->. injection D as ->. auto.
Qed.

(** Between iterations a and k of a run that has returned or is still going, with
    step sizes between m and M that never were set to lmda/2, not many more than
    half of the proposals were accepted; for the whole band 20 bounds the factor. *)
Theorem C71_not_too_many : forall G (R0 : rng G) f pr q prm fuel start w w' n r accs trace a k,
  0 < n_lmda q -> sized (w_inst w) n -> p_nsamples prm = Z.of_nat n ->
  pxmala_run (mcmc_ops R0 f pr q) prm true fuel start w = (w', r) -> (r = Ret tt \/ r = NoFuel) ->
  i_acc (w_inst w') = Some accs -> i_deltas (w_inst w') = Some trace ->
  (a < k <= length accs)%nat -> stays_below (n_lmda q) trace a k ->
  (forall m M, 0 < m -> (forall i, (a <= i <= k)%nat -> m <= step_at trace i <= M) ->
     INR (accepted_in accs a k) <= INR (k - a) / 2 + (ln (M / m) + 3 / 2) * pow34 k) /\
  ((1 <= a)%nat \/ in_band (n_lmda q) (i_delta (w_inst w)) ->
     INR (accepted_in accs a k) <= INR (k - a) / 2 + 20 * pow34 k).
Proof.
  intros G R0 f pr q prm fuel start w w' n r accs trace a k L HS HN E RE EA ED K SB.
  destruct (run_history _ _ _ _ _ _ _ _ _ _ _ _ _ _ L HS HN E RE EA ED) as (ds & -> & T). split.
  - intros m M P RG. assert (Q := th_few _ _ _ _ L T m M a k K P RG SB). lra.
  - intros A. assert (Q := th_few_band _ _ _ _ L T a k K A SB). lra.
Qed.
Print Assumptions C71_not_too_many.

(** the same for the lower end of the band *)
Theorem C71_not_too_few : forall G (R0 : rng G) f pr q prm fuel start w w' n r accs trace a k,
  0 < n_lmda q -> sized (w_inst w) n -> p_nsamples prm = Z.of_nat n ->
  pxmala_run (mcmc_ops R0 f pr q) prm true fuel start w = (w', r) -> (r = Ret tt \/ r = NoFuel) ->
  i_acc (w_inst w') = Some accs -> i_deltas (w_inst w') = Some trace ->
  (a < k <= length accs)%nat -> stays_above (n_lmda q) trace a k ->
  (forall m M, 0 < m -> (forall i, (a <= i <= k)%nat -> m <= step_at trace i <= M) ->
     INR (k - a) / 2 - ln (M / m) * pow34 k <= INR (accepted_in accs a k)) /\
  ((1 <= a)%nat \/ in_band (n_lmda q) (i_delta (w_inst w)) ->
     INR (k - a) / 2 - 20 * pow34 k <= INR (accepted_in accs a k)).
Proof.
  intros G R0 f pr q prm fuel start w w' n r accs trace a k L HS HN E RE EA ED K SB.
  destruct (run_history _ _ _ _ _ _ _ _ _ _ _ _ _ _ L HS HN E RE EA ED) as (ds & -> & T). split.
  - intros m M P RG. assert (Q := th_many _ _ _ _ L T m M a k K P RG SB). lra.
  - intros A. assert (Q := th_many_band _ _ _ _ L T a k K A SB). lra.
Qed.
Print Assumptions C71_not_too_few.

Lemma mean_accepted : forall lmda d0 accs ds, tuned_history lmda d0 accs ds ->
  mean_of accs = INR (accepted_in accs 0 (length accs)) / INR (length accs).
Proof.
  intros lmda d0 accs ds T. unfold mean_of, accepted_in. rewrite Nat.sub_0_r. simpl skipn. rewrite firstn_all. f_equal.
  assert (B : List.Forall (fun z => z = 1%Z \/ z = 0%Z) accs).
  { apply Forall_forall. intros z Hz. destruct (In_nth _ _ 2%Z Hz) as (i & Hi & <-).
    rewrite <- (proj1 T) in Hi. exact (proj1 (proj2 (proj2 T i Hi))). }
  clear T. induction B as [|z l [-> | ->] B IH]; [reflexivity| |]; cbn [fold_right count_occ]; rewrite IH;
    destruct (Z.eq_dec _ _) as [Q | Q]; try (exfalso; apply Q; reflexivity); try discriminate Q; rewrite ?S_INR; ring.
Qed.

(** The documentation: "tunes delta to achieve an acceptance probability of 0.5".
    The mean of acceptance_trace is within e of 1/2, for every problem, every
    generator and every run of at least a/e and (40/e)^4 iterations that keeps its
    step size off the ends of the band from iteration a on; one end matters for
    each side. *)
Theorem C71_rate : forall G (R0 : rng G) f pr q prm fuel start w w' n r accs trace a e,
  0 < n_lmda q -> sized (w_inst w) n -> p_nsamples prm = Z.of_nat n ->
  pxmala_run (mcmc_ops R0 f pr q) prm true fuel start w = (w', r) -> (r = Ret tt \/ r = NoFuel) ->
  i_acc (w_inst w') = Some accs -> i_deltas (w_inst w') = Some trace ->
  0 < e -> (1 <= a)%nat -> INR a / e <= INR (length accs) -> (40 / e) ^ 4 <= INR (length accs) -> (a < length accs)%nat ->
  (stays_below (n_lmda q) trace a (length accs) -> mean_of accs <= 1 / 2 + e) /\
  (stays_above (n_lmda q) trace a (length accs) -> 1 / 2 - e <= mean_of accs).
Proof.
  intros G R0 f pr q prm fuel start w w' n r accs trace a e L HS HN E RE EA ED E0 A1 KA KE K.
  destruct (run_history _ _ _ _ _ _ _ _ _ _ _ _ _ _ L HS HN E RE EA ED) as (ds & -> & T).
  rewrite (mean_accepted _ _ _ _ T). set (k := length accs) in *.
  assert (K0 : 0 < INR k) by (apply lt_0_INR; lia).
  assert (SP := accepted_split accs a k ltac:(lia)). assert (LE := accepted_le accs a). apply le_INR in LE.
  rewrite SP, plus_INR. assert (P0 := pos_INR (accepted_in accs 0 a)).
  assert (KM : INR (k - a) = INR k - INR a) by (apply minus_INR; lia).
  assert (SM := pow34_small e k E0 KE).
  assert (AE : INR a <= e * INR k).
  { apply Rmult_le_compat_l with (r := e) in KA; [|lra]. replace (e * (INR a / e)) with (INR a) in KA by (field; lra). exact KA. }
  split; intros SB.
  - assert (Q := th_few_band _ _ _ _ L T a k ltac:(lia) (or_introl A1) SB).
    apply Rmult_le_reg_r with (INR k); [exact K0|]. unfold Rdiv at 1. rewrite Rmult_assoc, Rinv_l, Rmult_1_r by lra. lra.
  - assert (Q := th_many_band _ _ _ _ L T a k ltac:(lia) (or_introl A1) SB).
    apply Rmult_le_reg_r with (INR k); [exact K0|]. unfold Rdiv at 2. rewrite Rmult_assoc, Rinv_l, Rmult_1_r by lra. lra.
Qed.
Print Assumptions C71_rate.

(** So a rate away from 1/2 means that the step size is at an end of the band. *)
Theorem C71_other_rates : forall G (R0 : rng G) f pr q prm fuel start w w' n r accs trace a e,
  0 < n_lmda q -> sized (w_inst w) n -> p_nsamples prm = Z.of_nat n ->
  pxmala_run (mcmc_ops R0 f pr q) prm true fuel start w = (w', r) -> (r = Ret tt \/ r = NoFuel) ->
  i_acc (w_inst w') = Some accs -> i_deltas (w_inst w') = Some trace ->
  0 < e -> (1 <= a)%nat -> INR a / e <= INR (length accs) -> (40 / e) ^ 4 <= INR (length accs) -> (a < length accs)%nat ->
  (1 / 2 + e < mean_of accs -> exists i, (a < i <= length accs)%nat /\ step_at trace i = n_lmda q / 2) /\
  (mean_of accs < 1 / 2 - e -> exists i, (a < i <= length accs)%nat /\ step_at trace i = n_lmda q / 10 ^ 8).
Proof.
  intros G R0 f pr q prm fuel start w w' n r accs trace a e L HS HN E RE EA ED E0 A1 KA KE K.
  destruct (C71_rate _ _ _ _ _ _ _ _ _ _ _ _ _ _ _ _ L HS HN E RE EA ED E0 A1 KA KE K) as (U & D).
  destruct (run_history _ _ _ _ _ _ _ _ _ _ _ _ _ _ L HS HN E RE EA ED) as (ds & -> & T).
  assert (IB : forall i, (a < i <= length accs)%nat -> in_band (n_lmda q) (step_at (i_delta (w_inst w) :: ds) i)).
  { intros i Hi. apply (th_inband _ _ _ _ T a (or_introl A1)). lia. }
  assert (SEARCH : forall v N, (forall i, (a < i <= N)%nat -> step_at (i_delta (w_inst w) :: ds) i <> v) \/
                          exists i, (a < i <= N)%nat /\ step_at (i_delta (w_inst w) :: ds) i = v).
  { intros v N. induction N as [|N [IH | (i & Hi & Ei)]]; [left; intros; lia| |right; exists i; split; [lia|exact Ei]].
    destruct (Req_dec (step_at (i_delta (w_inst w) :: ds) (S N)) v) as [EQ | NE].
    - destruct (Nat.lt_ge_cases a (S N)) as [LT | GE]; [right; exists (S N); split; [lia|exact EQ]|left; intros; lia].
    - left. intros i Hi. destruct (Nat.eq_dec i (S N)) as [-> | ?]; [exact NE|apply IH; lia]. }
  split; intros M.
  - destruct (SEARCH (n_lmda q / 2) (length accs)) as [NO | YES]; [exfalso|exact YES].
    assert (Q : mean_of accs <= 1 / 2 + e); [|lra].
    apply U. intros i Hi. destruct (proj2 (IB i Hi)) as [LT | EQ]; [exact LT|exfalso; exact (NO i Hi EQ)].
  - destruct (SEARCH (n_lmda q / 10 ^ 8) (length accs)) as [NO | YES]; [exfalso|exact YES].
    assert (Q : 1 / 2 - e <= mean_of accs); [|lra].
    apply D. intros i Hi. destruct (proj1 (IB i Hi)) as [LT | EQ]; [exact LT|exfalso; exact (NO i Hi (eq_sym EQ))].
Qed.
Print Assumptions C71_other_rates.

(** The ends are reached: a run of acceptances (rejections) from iteration a to
    iteration k, with (k + 1)^(1/4) at least 10 more than (a + 1)^(1/4), leaves the
    largest (smallest) step size.  From the start 14640 iterations are enough. *)
Theorem C71_ends_reached : forall G (R0 : rng G) f pr q prm fuel start w w' n r accs trace a k c,
  0 < n_lmda q -> sized (w_inst w) n -> p_nsamples prm = Z.of_nat n ->
  pxmala_run (mcmc_ops R0 f pr q) prm true fuel start w = (w', r) -> (r = Ret tt \/ r = NoFuel) ->
  i_acc (w_inst w') = Some accs -> i_deltas (w_inst w') = Some trace ->
  (a < k <= length accs)%nat -> (1 <= a)%nat \/ in_band (n_lmda q) (i_delta (w_inst w)) ->
  (forall i, (a <= i < k)%nat -> nth i accs 2%Z = c) ->
  (Rpower (INR a + 1) (1 / 4) + 10) ^ 4 <= INR k + 1 ->
  (c = 1%Z -> step_at trace k = n_lmda q / 2) /\ (c = 0%Z -> step_at trace k = n_lmda q / 10 ^ 8).
Proof.
  intros G R0 f pr q prm fuel start w w' n r accs trace a k c L HS HN E RE EA ED K A AC BIG.
  destruct (run_history _ _ _ _ _ _ _ _ _ _ _ _ _ _ L HS HN E RE EA ED) as (ds & -> & T).
  exact (th_all _ _ _ _ L T a k c K A AC BIG).
Qed.
Print Assumptions C71_ends_reached.

Example C71_case_start : (Rpower (INR 0 + 1) (1 / 4) + 10) ^ 4 <= INR 14640 + 1.
Proof.
  simpl (INR 0). rewrite Rplus_0_l. unfold Rpower. rewrite ln_1, Rmult_0_r, exp_0.
  replace (INR 14640) with 14640 by (rewrite INR_IZR_INZ; reflexivity). lra.
Qed.

(** ** rows and iterations *)
Lemma count_positions : forall (accs : list Z) a k, (k <= length accs)%nat ->
  accepted_in accs a k = length (filter (fun i => Z.eqb (nth i accs 2%Z) 1) (seq a (k - a))).
Proof.
  intros accs a k K. unfold accepted_in. remember (k - a)%nat as n eqn:En. revert a En.
  induction n as [|n IH]; intros a En; [reflexivity|].
  assert (Hi : (a < length accs)%nat) by lia.
  assert (E : skipn a accs = nth a accs 2%Z :: skipn (S a) accs).
  { clear - Hi. revert a Hi. induction accs as [|z l IH]; intros a Hi; [simpl in Hi; lia|].
    destruct a as [|a]; [reflexivity|]. simpl in Hi. simpl. rewrite (IH a) by lia. reflexivity. }
  rewrite E. cbn [firstn count_occ seq filter]. rewrite (IH (S a)) by lia.
  destruct (Z.eq_dec (nth a accs 2%Z) 1) as [Q | Q]; [rewrite (proj2 (Z.eqb_eq _ _) Q); reflexivity|].
  rewrite (proj2 (Z.eqb_neq _ _) Q). reflexivity.
Qed.

Lemma sorted_nodup : forall l, Sorted.StronglySorted lt l -> NoDup l.
Proof.
  intros l S. induction S as [|x l S IH F]; constructor; auto. intros IN. rewrite Forall_forall in F. specialize (F x IN). lia.
Qed.

Lemma nth_repeat_lt : forall {A} (x d : A) n i, (i < n)%nat -> nth i (repeat x n) d = x.
Proof. intros A x d n; induction n as [|n IH]; intros i Hi; [lia|]. destruct i as [|i]; [reflexivity|]. apply IH. lia. Qed.
Lemma f2_len : forall {A B} {P : A -> B -> Prop} {l l'}, List.Forall2 P l l' -> length l = length l'.
Proof. intros A B P l l' F. induction F; simpl; congruence. Qed.

Lemma reference_accs : forall G (R0 : rng G) f pr q prm start w w' k m accs,
  mh_reference (mcmc_ops R0 f pr q) prm true start w w' k m -> i_acc (w_inst w') = Some accs ->
  length accs = k /\ exists idx, length idx = m /\ NoDup idx /\
    forall i, In i idx <-> on_grid (p_nburn prm) (p_ngap prm) (Z.of_nat i) /\ (i < k)%nat /\ nth i accs 2%Z = 1%Z.
Proof.
  intros G R0 f pr q prm start w w' k m accs (x & g0 & tr & idx & l & S0 & MP & LT & (SS & IN) & LL & F2 & _ & EA & _) EA'.
  unfold mh_state in *. rewrite EA in EA'. injection EA' as <-. rewrite map_length. split; [exact LT|].
  exists idx. split; [rewrite <- LL; exact (f2_len F2)|]. split; [apply sorted_nodup, SS|].
  intros i. rewrite IN. split; intros (G1 & G2).
  - destruct G2 as (s & G2). split; [exact G1|]. assert (Hi : (i < length tr)%nat) by (apply nth_error_Some; rewrite G2; discriminate).
    split; [lia|]. rewrite (nth_map_in _ _ _ _ (true, s)) by exact Hi. rewrite (nth_error_nth _ _ _ G2). reflexivity.
  - split; [exact G1|]. destruct G2 as (Hi & E). rewrite <- LT in Hi.
    destruct (nth_error tr i) as [[b s]|] eqn:EN; [|apply nth_error_None in EN; lia].
    rewrite (nth_map_in _ _ _ _ (b, s)) in E by exact Hi. rewrite (nth_error_nth _ _ _ EN) in E. destruct b; [eauto|discriminate E].
Qed.

(** A run that returns with n rows after k iterations has accepted at least n
    proposals, so it took about 2 n iterations or more, unless the step size was set
    to lmda/2.  If every iteration after the burn-in may be saved (ngap 0 or 1) it
    took not many more than 2 n, unless the step size was set to the lower end. *)
Theorem C71_iterations : forall G (R0 : rng G) f pr q prm fuel start w w' n accs trace a,
  0 < n_lmda q -> sized (w_inst w) n -> p_nsamples prm = Z.of_nat n ->
  pxmala_run (mcmc_ops R0 f pr q) prm true fuel start w = (w', Ret tt) ->
  i_acc (w_inst w') = Some accs -> i_deltas (w_inst w') = Some trace ->
  let k := length accs in
  (1 <= a < k)%nat ->
  (stays_below (n_lmda q) trace a k -> 2 * INR n <= INR k + INR a + 40 * pow34 k) /\
  (stays_above (n_lmda q) trace a k -> (p_ngap prm = 0 \/ p_ngap prm = 1)%Z -> (p_nburn prm <= Z.of_nat a)%Z ->
     INR k <= 2 * INR n + INR a + 40 * pow34 k).
Proof.
  intros G R0 f pr q prm fuel start w w' n accs trace a L HS HN E EA ED k K.
  destruct (run_history _ _ _ _ _ _ _ _ _ _ _ _ _ _ L HS HN E (or_introl eq_refl) EA ED) as (ds & -> & T).
  destruct (mala_ref_ret _ _ _ _ _ _ _ _ HS HN E) as (k' & _ & RF).
  destruct (reference_accs _ _ _ _ _ _ _ _ _ _ _ _ RF EA) as (Ek & idx & LI & ND & IN). fold k in Ek. subst k'.
  assert (KM : INR (k - a) = INR k - INR a) by (apply minus_INR; lia).
  split.
  - intros SB. assert (Q := th_few_band _ _ _ _ L T a k ltac:(lia) (or_introl (proj1 K)) SB).
    assert (LE : (n <= accepted_in accs 0 k)%nat).
    { rewrite count_positions by lia. rewrite <- LI. apply NoDup_incl_length; [exact ND|]. intros i Hi.
      apply IN in Hi. destruct Hi as (_ & Hi & E1). apply filter_In. split; [apply in_seq; lia|]. rewrite E1. reflexivity. }
    rewrite (accepted_split accs a k) in LE by lia. assert (LA := accepted_le accs a).
    apply le_INR in LE. apply le_INR in LA. rewrite plus_INR in LE. lra.
  - intros SA NG NB. assert (Q := th_many_band _ _ _ _ L T a k ltac:(lia) (or_introl (proj1 K)) SA).
    assert (LE : (accepted_in accs a k <= n)%nat).
    { rewrite count_positions by lia. rewrite <- LI. apply NoDup_incl_length; [apply NoDup_filter, seq_NoDup|].
      intros i Hi. apply filter_In in Hi. destruct Hi as (Hi & E1). apply in_seq in Hi. apply Z.eqb_eq in E1.
      apply IN. split; [|split; [lia|exact E1]]. split; [lia|]. destruct NG as [-> | ->]; [left; reflexivity|right].
      exists (Z.of_nat i - p_nburn prm)%Z. lia. }
    apply le_INR in LE. lra.
Qed.
Print Assumptions C71_iterations.

(** ** a problem in which everything is accepted *)
(** one parameter that the data do not see: the path has length 0 in the pixel *)
Definition blind_op : forward_op :=
  mkFwd (mkData [RtoC 0] false) (scaled_identity 1 (RtoC 1)) "analysis"
        None (Some (mkMeas (fun _ => Ok [RtoC 0]) (fun _ => Ok [RtoC 0]))) (Some 1%nat).
(** threshold 0, so that the prox is the identity *)
Definition blind_prior : prior_obj := mkPrior (fun X => Ok (rsum (map Cmod X))) (fun X => Ok X).
(** mu = 0, lmda = 1 *)
Definition blind_num : numparams := mkNum 1 0 2 false.
(** normal numbers 1, uniform numbers 1/2 *)
Definition blind_rng : rng unit := mkRng (fun n g => (repeat 1 n, g)) (fun n g => (repeat 0 n, g)) (fun g => (1 / 2, g)).
Notation bo := (mcmc_ops blind_rng blind_op blind_prior blind_num).

Lemma blind_alpha : forall d z t a, mh_logalpha bo d [z] [t] a -> a = RtoC 0.
Proof.
  intros d z t a (dx & gx & px & lx & dy & gy & py & ly & qxy & qyx & E1 & E2 & E3 & E4 & E5 & E6 & E7 & E8 & E9 & E10 & ->).
  cbn in E1, E3, E5, E7. apply Ok_inj in E1, E3, E5, E7. subst dx px dy py.
  cbn in E2, E6. apply Ok_inj in E2, E6. subst gx gy.
  cbn in E4, E8. apply Ok_inj in E4, E8. subst lx ly. cbn in E9, E10. apply Ok_inj in E9, E10. subst qxy qyx.
  cbn [o_ksub o_kadd mcmc_ops fst snd]. generalize (Cmod z) (Cmod t). intros u v.
  destruct z as [z1 z2], t as [t1 t2]. apply injective_projections; simpl; field.
Qed.

Lemma blind_trans : forall i z d g acc x' d' g', mh_trans bo true i ([z], d, g) acc (x', d', g') -> acc = true /\ exists z', x' = [z'].
Proof.
  intros i z d g acc x' d' g' (y & g1 & u & a & (dx & gx & px & E1 & E2 & E3 & E4) & LA & LR & -> & -> & _).
  cbn in E1, E3. apply Ok_inj in E1, E3. subst dx px. cbn in E2. apply Ok_inj in E2. subst gx.
  cbn [mcmc_ops o_step] in E4. unfold chain_step in E4. cbn in E4.
  destruct (Req_EM_T 1 0) as [Q | _]; [lra|]. injection E4 as E4 <-. subst y.
  apply blind_alpha in LA. subst a. cbn in LR. unfold logrand in LR. cbn in LR. injection LR as <- <-.
  assert (K : clex_ltb (RtoC (ln (1 / 2))) (RtoC 0) = true).
  { unfold clex_ltb. cbn [fst RtoC]. assert (N : ln (1 / 2) < 0) by (rewrite <- ln_1; apply ln_increasing; lra).
    rewrite (proj2 (Rltb_true _ _) N). reflexivity. }
  cbn [o_kltb mcmc_ops]. rewrite K. split; [reflexivity|eauto].
Qed.

Lemma blind_path : forall tr i z d g, mh_path bo true i ([z], d, g) tr -> map (fun p => b2z (fst p)) tr = repeat 1%Z (length tr).
Proof.
  intros tr; induction tr as [|[acc [[x' d'] g']] tr IH]; intros i z d g P; [reflexivity|].
  inversion P as [|? ? ? ? ? T P']; subst. destruct (blind_trans _ _ _ _ _ _ _ _ T) as (-> & z' & ->).
  simpl. f_equal. exact (IH _ _ _ _ P').
Qed.

(** "tunes delta to achieve an acceptance probability of 0.5": with a parameter that
    neither data nor regulariser restrict, tuned runs of any length accept every
    proposal, and their step size ends at lmda/2. *)
Theorem C71_half_refuted : exists G (R0 : rng G) f pr q (g : G), shapes_fit f pr 1 1 /\ 0 < n_lmda q /\
  (forall g, 0 < fst (g_rand R0 g) < 1) /\
  forall prm n w start z, sized (w_inst w) (S n) -> p_nsamples prm = Z.of_nat (S n) -> p_ngap prm = 1%Z -> p_nburn prm = 0%Z ->
    in_band (n_lmda q) (i_delta (w_inst w)) -> start = StartArray [1%nat] [z] ->
    exists w' accs trace, pxmala_run (mcmc_ops R0 f pr q) prm true (S n) start w = (w', Ret tt) /\
      i_acc (w_inst w') = Some accs /\ i_deltas (w_inst w') = Some trace /\ length accs = S n /\ mean_of accs = 1 /\
      ((14640 <= S n)%nat -> step_at trace (S n) = n_lmda q / 2).
Proof.
  exists unit, blind_rng, blind_op, blind_prior, blind_num, tt.
  assert (SF : shapes_fit blind_op blind_prior 1 1).
  { unfold shapes_fit. split; [reflexivity|]. split; [reflexivity|]. split; [reflexivity|]. split; [reflexivity|].
    split; [intros x Hx; exists [RtoC 0]; split; reflexivity|].
    split; [intros x Hx; destruct x as [|c [|? ?]]; try discriminate Hx; exists [RtoC 0]; split; reflexivity|].
    split; [intros x Hx; exists x; split; [reflexivity|exact Hx]|]. intros x Hx. eexists. reflexivity. }
  split; [exact SF|]. split; [simpl; lra|]. split; [intros g; simpl; lra|].
  intros prm n w start z SZ HN NG NB IB ->.
  assert (GR : good_rng blind_rng) by (intros m g; simpl; rewrite !repeat_length; auto).
  destruct (proj2 (C06_numerical_runs_end_iff unit blind_rng blind_op blind_prior blind_num prm true (StartArray [1%nat] [z]) w 1 1 (S n)
      GR SF ltac:(simpl; lra) ltac:(split; reflexivity) SZ HN) (S n)) as (w' & [E | E]).
  - destruct (mala_ref_ret _ _ _ _ _ _ _ _ SZ HN E) as (k & LE & RF).
    assert (RF' := RF). destruct RF' as (x & g0 & tr & idx & l & (S0 & _) & MP & LT & AG & LL & F2 & _ & EA & ED & _).
    cbn in S0. injection S0 as <- <-. rewrite (blind_path _ _ _ _ _ MP), LT in EA.
    destruct (reference_accs _ _ _ _ _ _ _ _ _ _ _ _ RF EA) as (_ & idx' & LI & ND & IN).
    assert (KN : (S n <= k)%nat).
    { rewrite <- LI. rewrite <- (seq_length k 0). apply NoDup_incl_length; [exact ND|]. intros i Hi. apply IN in Hi. apply in_seq. lia. }
    assert (KE : k = S n) by lia. rewrite KE in EA.
    exists w', (repeat 1%Z (S n)), (i_delta (w_inst w) :: map (fun p => snd (fst (snd p))) tr).
    split; [exact E|]. split; [exact EA|]. split; [exact ED|]. split; [apply repeat_length|]. split.
    + unfold mean_of. rewrite repeat_length. assert (P : 0 < INR (S n)) by (apply lt_0_INR; lia).
      replace (fold_right (fun z0 s => IZR z0 + s) 0 (repeat 1%Z (S n))) with (INR (S n)); [field; lra|].
      clear. generalize (S n). intros m. induction m as [|m IH]; [reflexivity|]. simpl repeat. simpl fold_right. rewrite <- IH, S_INR. ring.
    + intros BIG.
      assert (R := C71_ends_reached unit blind_rng blind_op blind_prior blind_num prm (S n) (StartArray [1%nat] [z]) w w' (S n) (Ret tt)
                (repeat 1%Z (S n)) _ 0 (S n) 1%Z ltac:(simpl; lra) SZ HN E (or_introl eq_refl) EA ED).
      rewrite repeat_length in R. apply R; try lia.
      * right. exact IB.
      * intros i Hi. apply nth_repeat_lt. lia.
      * apply Rle_trans with (1 := C71_case_start). apply Rplus_le_compat_r, le_INR. exact BIG.
  - exfalso. destruct (mala_ref_stop _ _ _ _ _ _ _ _ SZ HN E) as (m & LE & RF).
    assert (RF' := RF). destruct RF' as (x & g0 & tr & idx & l & (S0 & _) & MP & LT & AG & LL & F2 & _ & EA & ED & _).
    cbn in S0. injection S0 as <- <-. rewrite (blind_path _ _ _ _ _ MP), LT in EA.
    destruct (reference_accs _ _ _ _ _ _ _ _ _ _ _ _ RF EA) as (_ & idx' & LI & ND & IN).
    assert (KN : (S n <= m)%nat); [|lia].
    rewrite <- LI. rewrite <- (seq_length (S n) 0). apply NoDup_incl_length; [apply seq_NoDup|]. intros i Hi. apply in_seq in Hi.
    apply IN. split; [|split; [lia|apply nth_repeat_lt; lia]]. rewrite NB, NG. split; [lia|]. right. exists (Z.of_nat i). lia.
Qed.
Print Assumptions C71_half_refuted.

(** one rejection and one acceptance from step size 1/4, lmda = 1: a history as the
    theorems speak of, off both ends *)
Example C71_case :
  let trace := [1 / 4; 1 / 8; 1 / 8 + 1 / 8 * (1 / 2) * Rpower 2 (- (3 / 4))] in
  tuned_history 1 (1 / 4) [0%Z; 1%Z] (tl trace) /\ stays_below 1 trace 0 2 /\ stays_above 1 trace 0 2 /\
  accepted_in [0%Z; 1%Z] 0 2 = 1%nat /\ accepted_in [0%Z; 1%Z] 1 2 = 1%nat /\ mean_of [0%Z; 1%Z] = 1 / 2.
Proof.
  intros trace. assert (W := rpow_le1 2 ltac:(lra)). set (p := Rpower 2 (- (3 / 4))) in *.
  assert (S0 : adapted 1 (1 / 4) 0 0 = 1 / 8).
  { unfold adapted. simpl INR. replace (0 + 1) with 1 by ring. unfold Rpower. rewrite ln_1, Rmult_0_r, exp_0.
    destruct (Rle_dec _ _) as [Q | Q]; [simpl in Q; lra|]. destruct (Rle_dec _ _) as [Q' | Q']; [simpl in Q'; lra|]. lra. }
  assert (S1 : adapted 1 (1 / 8) 1 1 = 1 / 8 + 1 / 8 * (1 / 2) * p).
  { unfold adapted. simpl INR. replace (1 + 1) with 2 by ring. fold p. replace (1 - 1 / 2) with (1 / 2) by lra.
    destruct (Rle_dec _ _) as [Q | Q]; [simpl in Q; lra|]. destruct (Rle_dec _ _) as [Q' | Q']; [lra|]. reflexivity. }
  split; [split; [reflexivity|]|].
  - intros i Hi prev d. unfold trace in *. simpl in Hi.
    destruct i as [|[|i]]; [| |lia]; unfold prev, d; cbn [nth tl]; (split; [|split; [|split]]).
    + split; simpl; lra.
    + right. reflexivity.
    + symmetry. exact S0.
    + intros IB. split; [intros Q; discriminate Q|]. split; [intros _; lra|].
      simpl INR. unfold Rpower. rewrite ln_1, Rmult_0_r, exp_0. apply Rabs_le. lra.
    + split; simpl; lra.
    + left. reflexivity.
    + symmetry. exact S1.
    + intros IB. split; [intros _; lra|]. split; [intros Q; discriminate Q|].
      simpl INR. replace (1 + 1) with 2 by ring. fold p. apply Rabs_le. lra.
  - split; [|split; [|split; [|split]]].
    + intros i Hi. destruct i as [|[|[|i]]]; try lia; unfold step_at, trace; cbn [nth]; lra.
    + intros i Hi. destruct i as [|[|[|i]]]; try lia; unfold step_at, trace; cbn [nth]; simpl; lra.
    + reflexivity.
    + reflexivity.
    + unfold mean_of. simpl. lra.
Qed.
