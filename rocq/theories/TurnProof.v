(** Lemmas for C73: the iterates of MYULA runs whose weights are turned. *)
From Coq Require Import List ZArith Lia Bool Reals Lra Psatz String.
From Coquelicot Require Import Coquelicot.
From Verif Require Import PyBase PyBaseFacts CVec Thresh ThreshSpec ThreshProof OpSpec Utils UtilsProof Prior PriorProof Forward
  McmcSpec FwdProof MeasProof Sampler SamplerSpec SamplerFacts SamplerMain Mcmc StepProof P_Samplers P_Mcmc P_Works StableProof P_Stable
  MomentSpec MomentProof P_Moments TurnSpec.
Import ListNotations.
Notation length := List.length.
Open Scope R_scope.

(** ** runs whose steps are defined, as functions of the tape *)

Definition steps_defined (f : forward_op) (pr : prior_obj) (q : numparams) (n : nat) : Prop :=
  fo_nparams f = Some n /\ forall X, length X = n ->
  exists d gr p, fo_forward f X = Ok d /\ fo_gradg f d = Ok gr /\ pr_proxf pr X = Ok p /\ length gr = n /\ length p = n /\
    gradlogpi f pr q X None = Ok (drift f pr q X) /\ length (drift f pr q X) = n /\
    drift f pr q X = langevin_drift (n_lmda q) X p gr.

Lemma next_length_gen : forall f pr q n delta X, steps_defined f pr q n -> length X = n ->
  length (next_mean f pr q delta X) = n.
Proof.
  intros f pr q n delta X CP LX. destruct (proj2 CP X LX) as (_ & _ & _ & _ & _ & _ & _ & _ & _ & L & _).
  unfold next_mean. rewrite vadd_length; rewrite ?vscal_length; congruence.
Qed.

Lemma trans_tape_gen : forall R0 f pr q n delta X d l1 l2 X' d' l', good_rng R0 -> reads_tape R0 n ->
  steps_defined f pr q n -> n_lmda q <> 0 -> length X = n -> fo_forward f X = Ok d -> tape_of n (per_step (n_complex q)) l1 ->
  myula_trans (mcmc_ops R0 f pr q) delta (X, d, l1 ++ l2) (X', d', l') ->
  X' = vadd (next_mean f pr q delta X) (vscal (RtoC (sqrt (2 * delta))) (noise_of (n_complex q) l1)) /\ l' = l2 /\
  length X' = n /\ fo_forward f X' = Ok d'.
Proof.
  intros R0 f pr q n delta X d l1 l2 X' d' l' GR RT CP NZ LX Ed T (gr & p & Eg & Ep & Es & Ef).
  cbn [mcmc_ops o_gradg o_proxf o_step o_forward] in *.
  destruct (proj2 CP X LX) as (d0 & gr0 & p0 & A1 & A2 & A3 & A4 & A5 & A6 & A7 & A8).
  rewrite Ed in A1. injection A1 as <-. rewrite Eg in A2. injection A2 as <-. rewrite Ep in A3. injection A3 as <-.
  destruct (C12_step _ R0 f pr q delta X d p gr (l1 ++ l2) n GR (proj1 CP) NZ LX Ed Ep Eg A5 A4) as (gl & B1 & _ & _ & B4).
  rewrite A6 in B1. injection B1 as <-.
  destruct (noise_tape R0 (n_complex q) n l1 l2 RT T) as (N1 & N2). rewrite N1, Es in B4. injection B4 as -> ->.
  split; [reflexivity|]. split; [reflexivity|]. split; [|exact Ef].
  assert (L := next_length_gen f pr q n delta X CP LX). unfold next_mean in L.
  rewrite vadd_length; rewrite ?vscal_length; congruence.
Qed.

Lemma path_tape_gen : forall R0 f pr q n delta, good_rng R0 -> reads_tape R0 n ->
  steps_defined f pr q n -> n_lmda q <> 0 ->
  forall k tr X d l X' d' l', length X = n -> fo_forward f X = Ok d ->
  (forall w, In w l -> length w = n) -> (per_step (n_complex q) * S k <= length l)%nat ->
  path (myula_trans (mcmc_ops R0 f pr q) delta) (X, d, l) tr -> nth_error tr k = Some (X', d', l') ->
  X' = it (next_mean f pr q delta) (sqrt (2 * delta)) (n_complex q) (S k) X l /\ length X' = n.
Proof.
  intros R0 f pr q n delta GR RT CP NZ. set (b := n_complex q).
  induction k as [|k IH]; intros tr X d l X' d' l' LX Ed T HL P N; (destruct tr as [|((x1 & d1) & l1') tr]; [discriminate|]);
    destruct (path_inv _ _ _ _ P) as (TR & Q);
    (assert (E : l = firstn (per_step b) l ++ skipn (per_step b) l) by (symmetry; apply firstn_skipn));
    (assert (TT : tape_of n (per_step b) (firstn (per_step b) l)) by
       (split; [rewrite firstn_length; lia|intros w Hw; apply T; rewrite E; apply in_or_app; auto]));
    rewrite E in TR;
    destruct (trans_tape_gen R0 f pr q n delta X d _ _ x1 d1 l1' GR RT CP NZ LX Ed TT TR) as (E1 & -> & L1 & F1);
    (assert (EN : noise_of b (firstn (per_step b) l) = noise_of b l) by
       (rewrite E at 2; symmetry; apply noise_of_app; rewrite firstn_length; lia));
    fold b in E1; rewrite EN in E1; cbn [nth_error] in N.
  - injection N as <- <- <-. cbn [it]. auto.
  - cbn [it]. rewrite <- E1. eapply (IH tr x1 d1); eauto.
    + intros w Hw. apply T. rewrite E. apply in_or_app; auto.
    + rewrite skipn_length. lia.
Qed.

Lemma run_row_gen : forall R0 f pr q prm n N fuel sh X s0 l j w',
  let o := mcmc_ops R0 f pr q in
  good_rng R0 -> reads_tape R0 n -> steps_defined f pr q n -> n_lmda q <> 0 ->
  sized s0 N -> p_nsamples prm = Z.of_nat N -> i_chain s0 <> None -> (j < N)%nat ->
  (forall w, In w l -> length w = n) ->
  let k := S (Z.to_nat (save_iter (p_nburn prm) (p_ngap prm) j)) in (per_step (n_complex q) * k <= length l)%nat ->
  myula_run o prm fuel (StartArray sh X) (mkWorld s0 l) = (w', Ret tt) ->
  let x := it (next_mean f pr q (i_delta s0)) (sqrt (2 * i_delta s0)) (n_complex q) k X l in
  length X = n /\ length x = n /\
  row_of (myula_run o prm fuel (StartArray sh X)) s0 j [] l = st (n_complex q) x.
Proof.
  intros R0 f pr q prm n N fuel sh X s0 l j w' o GR RT CP NZ SZ EN NC Hj T k HL M x.
  destruct (C01_myula_schedule _ _ _ _ _ _ o prm fuel _ (mkWorld s0 l) w' N SZ EN M) as (s1 & tr & es & S1 & P1 & _ & _ & L1 & _ & R1 & V1).
  cbn [w_inst w_rng] in *. assert (NP : fo_nparams f = Some n) by apply CP.
  assert (ST : exists d, s1 = (X, d, l) /\ length X = n /\ fo_forward f X = Ok d).
  { destruct s1 as ((x0 & d) & g'). destruct S1 as (I & F). unfold o in I, F. cbn [mcmc_ops o_init o_forward choose_start] in I, F. rewrite NP in I.
    destruct (negb (Nat.eqb (length sh) 1)); [discriminate|]. destruct (Nat.eqb_spec (length X) n); [|discriminate].
    injection I as <- <-. eauto. }
  destruct ST as (d & -> & LX & Ed).
  destruct (nth_error es j) as [e|] eqn:Ee; [|apply nth_error_None in Ee; lia].
  destruct (V1 j e Ee) as (((X' & d') & l') & A & B).
  destruct (path_tape_gen R0 f pr q n (i_delta s0) GR RT CP NZ _ tr X d l X' d' l' LX Ed T HL P1 A) as (EX & LX').
  fold k in EX. fold x in EX. split; [auto|]. split; [congruence|].
  assert (E1 : e_X e = x) by (rewrite <- EX; destruct e as ((? & ?) & ?); destruct B; auto).
  destruct R1 as (_ & _ & _ & _ & R1). unfold row_of, rec_arr in *. rewrite M. cbn [fst].
  destruct (i_chain s0) as [a0|]; [|congruence]. destruct (i_chain (w_inst w')) as [c|]; [|destruct R1].
  destruct R1 as (rows & F2 & _ & ->).
  assert (LR := Forall2_length _ _ _ F2). rewrite map_length in LR. rewrite app_nth1 by lia.
  assert (RW : o_rowV o (e_X e) = Ok (nth j rows [])).
  { clear - F2 Ee. revert rows j F2 Ee. induction es as [|e0 es IH]; intros rows j F2 E; inversion F2; subst; [destruct j; discriminate|].
    destruct j as [|j]; cbn in *; [injection E as ->; auto|]. eapply IH; eauto. }
  rewrite E1 in RW. unfold o in RW. cbn [mcmc_ops o_rowV] in RW. rewrite NP in RW. cbn [num_of] in RW.
  unfold store_row in RW. rewrite <- EX, LX', Nat.eqb_refl in RW. injection RW as RW. rewrite <- RW, EX. unfold st.
  destruct (n_complex q); [apply map_id|]. reflexivity.
Qed.

Lemma row_expect_gen : forall R0 f pr q prm fuel sh X s0 n N K j S v (h : vec -> R),
  steps_defined f pr q n -> n_lmda q <> 0 -> white S n v -> tape_runs R0 f pr q prm fuel sh X s0 n N K j ->
  expect S K (fun l => h (row_of (myula_run (mcmc_ops R0 f pr q) prm fuel (StartArray sh X)) s0 j [] l)) =
  expect S K (fun l => h (st (n_complex q) (it (next_mean f pr q (i_delta s0)) (sqrt (2 * i_delta s0)) (n_complex q) (steps_to prm j) X l))).
Proof.
  intros R0 f pr q prm fuel sh X s0 n N K j S v h CP NZ W (GR & RT & SZ & EN & NC & Hj & HK & ER).
  apply (expect_ext S n); [intros; apply W; auto|]. intros l (L & T).
  destruct (ER l L T) as (w' & E).
  destruct (run_row_gen R0 f pr q prm n N fuel sh X s0 l j w' GR RT CP NZ SZ EN NC Hj T ltac:(rewrite L; exact HK) E) as (_ & _ & RW).
  rewrite RW. reflexivity.
Qed.

Lemma start_length_gen : forall R0 f pr q prm fuel sh X s0 n N K j S v,
  steps_defined f pr q n -> n_lmda q <> 0 -> white S n v -> tape_runs R0 f pr q prm fuel sh X s0 n N K j -> length X = n.
Proof.
  intros R0 f pr q prm fuel sh X s0 n N K j S v CP NZ W (GR & RT & SZ & EN & NC & Hj & HK & ER).
  set (l := repeat (repeat 0 n) K). assert (L : length l = K) by apply repeat_length.
  assert (T : forall w, In w l -> length w = n) by (intros w Hw; apply repeat_spec in Hw; rewrite Hw; apply repeat_length).
  destruct (ER l L T) as (w' & E).
  destruct (run_row_gen R0 f pr q prm n N fuel sh X s0 l j w' GR RT CP NZ SZ EN NC Hj T ltac:(rewrite L; exact HK) E) as (LX & _). exact LX.
Qed.


(** ** turned weights *)

Lemma turned_forward : forall f f0 m X, turned f f0 m -> fo_forward f X = fo_forward f0 X.
Proof. intros f f0 m X (_ & ES & ET & EM & _). unfold fo_forward. rewrite ES, ET, EM. reflexivity. Qed.

Lemma turned_linear : forall f f0 p m, turned f f0 m -> linear_model f0 p m -> linear_model f p m.
Proof. intros f f0 p m (_ & ES & ET & EM & _) L. unfold linear_model in *. rewrite ES, ET, EM. exact L. Qed.

Lemma turned_matvec : forall f f0 m x, turned f f0 m -> matvec (fo_invcov f) x = vscal turn (matvec (fo_invcov f0) x).
Proof.
  intros f f0 m x (_ & _ & _ & _ & _ & R1 & E1 & R2 & E2 & H). apply nth_ext with (d := RtoC 0) (d' := RtoC 0).
  - rewrite vscal_length, !matvec_length. congruence.
  - intros i Hi. rewrite matvec_length in Hi. rewrite nth_vscal, !nth_matvec by congruence. rewrite <- csum_map_scal, E1, E2.
    apply csum_map_ext. intros j Hj. apply in_seq in Hj. rewrite H by lia. ring.
Qed.

Lemma turned_quadform : forall f f0 m x, turned f f0 m -> length x = m ->
  quadform (fo_invcov f) x = (turn * quadform (fo_invcov f0) x)%C.
Proof.
  intros f f0 m x T L. assert (T' := T). destruct T' as (_ & _ & _ & _ & _ & R1 & E1 & R2 & E2 & _).
  rewrite <- !cdot_matvec_quadform by congruence. rewrite (turned_matvec f f0 m x T), cdot_vscal_r. reflexivity.
Qed.

Lemma turned_gradg : forall f f0 p m X, turned f f0 m -> linear_model f0 p m -> length (d_val (fo_data f0)) = m -> length X = p ->
  exists d g, fo_forward f0 X = Ok d /\ fo_forward f X = Ok d /\ length d = m /\
    fo_gradg f0 d = Ok g /\ fo_gradg f d = Ok (vscal turn g) /\ length g = p.
Proof.
  intros f f0 p m X T LM LD LX. assert (T' := T). destruct T' as (ED & ES & ET & EM & _ & R1 & E1 & R2 & E2 & _).
  destruct (linear_model_ops f0 p m LM) as (A & AP & EG).
  destruct (linear_model_ops f p m (turned_linear f f0 p m T LM)) as (A' & AP' & EG').
  assert (AA : forall y, length y = m -> A' y = A y).
  { intros y Ly. apply (adjoint_unique (fo_forward f0) A' A p m); [|exact AP|exact Ly].
    apply (adjoint_pair_ext _ _ (fo_forward f0) A' p m AP'); [intros; symmetry; apply (turned_forward f f0 m), T|auto]. }
  assert (LA := adjoint_linear _ _ _ _ (adjoint_swap _ _ _ _ AP)). destruct AP as (MF & MA & _).
  destruct (MF X LX) as (d & Ed & Ld). exists d.
  assert (LW : length (matvec (fo_invcov f0) (vsub d (d_val (fo_data f0)))) = m) by (rewrite matvec_length; auto).
  destruct (MA _ LW) as (g & Eg & Lg). exists g.
  split; [exact Ed|]. split; [rewrite (turned_forward f f0 m) by auto; exact Ed|]. split; [exact Ld|].
  split; [|split; [|exact Lg]].
  - rewrite EG, np_sub_same by congruence. cbn [rbind]. rewrite np_dot_ok by (rewrite vsub_length; congruence). exact Eg.
  - rewrite EG', ED, np_sub_same by congruence. cbn [rbind]. rewrite np_dot_ok by (rewrite vsub_length; congruence). cbn [rbind].
    rewrite (turned_matvec f f0 m) by auto. rewrite AA by (rewrite vscal_length; auto). apply (linear_scal A m p); auto.
Qed.

Lemma turned_steps : forall f f0 pr q n m, turned f f0 m -> linear_model f0 n m -> length (d_val (fo_data f0)) = m ->
  fo_nparams f0 = Some n -> maps (pr_proxf pr) n n -> steps_defined f pr q n.
Proof.
  intros f f0 pr q n m T LM LD EN MP. split; [destruct T as (_ & _ & _ & _ & E & _); congruence|]. intros X LX.
  destruct (turned_gradg f f0 n m X T LM LD LX) as (d & g & _ & Ed & _ & _ & Eg & Lg).
  destruct (MP X LX) as (p & Ep & Lp). exists d, (vscal turn g), p.
  assert (E : gradlogpi f pr q X None = Ok (langevin_drift (n_lmda q) X p (vscal turn g))).
  { apply (gradlogpi_value f pr q X d); auto; rewrite ?vscal_length; congruence. }
  assert (E' : drift f pr q X = langevin_drift (n_lmda q) X p (vscal turn g)) by (unfold drift; rewrite E; reflexivity).
  split; [exact Ed|]. split; [exact Eg|]. split; [exact Ep|]. split; [rewrite vscal_length; auto|]. split; [exact Lp|].
  split; [rewrite E'; exact E|]. split; [|exact E']. rewrite E', drift_length; rewrite ?vscal_length; congruence.
Qed.

(** ** the mean square of the real parts *)

Lemma re_part_length : forall x, length (re_part x) = length x.
Proof. intros. apply map_length. Qed.

Lemma re_split : forall n (z : C) (c : R) (a : vec) (w : list R), length a = n -> length w = n ->
  re_part (vscal z (vadd a (vscal (RtoC c) (map RtoC w)))) = vadd (re_part (vscal z a)) (vscal (RtoC (c * Re z)) (map RtoC w)).
Proof.
  intros n z c. unfold re_part, vscal, vadd. induction n as [|n IH]; intros [|x a] [|y w] La Lw; cbn in La, Lw; try lia; [reflexivity|].
  cbn [map map2]. f_equal; [|apply IH; lia]. destruct z, x. apply C_ext; cbn; ring.
Qed.

Lemma vscal_vscal : forall a b (x : vec), vscal a (vscal b x) = vscal (a * b)%C x.
Proof. intros. unfold vscal. rewrite map_map. apply map_ext. intros; ring. Qed.

Section ReIter.
Variable A : vec -> vec.
Variable c : R.
Variable S : law.
Variable n : nat.
Variable v : R.
Variable a : C.
Variable xs : vec.
Hypothesis W : white S n v.
Hypothesis Lx : length xs = n.
Hypothesis LA : forall X, length X = n -> length (A X) = n.
Hypothesis HA : forall X, length X = n -> vsub (A X) xs = vscal a (vsub X xs).

Lemma re_second : forall k K X, length X = n -> (k <= K)%nat ->
  expect S K (fun l => nrm2 (re_part (vsub (it A c false k X l) xs))) =
  nrm2 (re_part (vscal (cpow a k) (vsub X xs))) + c ^ 2 * (v * INR n) * re_geom a k.
Proof.
  assert (M1 : mean S (fun _ => 1) = 1) by apply W.
  induction k as [|k IH]; intros K X LX HK.
  - cbn [it]. rewrite expect_const by exact M1. cbn [cpow re_geom].
    assert (E : vscal (RtoC 1) (vsub X xs) = vsub X xs) by (unfold vscal; rewrite <- map_id; apply map_ext; intros; ring). rewrite E. ring.
  - destruct K as [|K]; [lia|]. cbn [expect it per_step].
    transitivity (mean S (fun w => nrm2 (vadd (re_part (vscal (cpow a (Datatypes.S k)) (vsub X xs))) (vscal (RtoC (c * Re (cpow a k))) (map RtoC w)))
       + c ^ 2 * (v * INR n) * re_geom a k)).
    { apply mean_ext. intros (p & w) Hp. cbn [snd]. assert (Lw : length w = n) by (destruct W as (L & _); apply (L (p, w)); auto).
      cbn [noise_of nth skipn].
      assert (LN : length (vadd (A X) (vscal (RtoC c) (map RtoC w))) = n) by (rewrite vadd_length; rewrite ?vscal_length, ?map_length, ?LA; auto).
      rewrite (IH K _ LN) by lia. f_equal. f_equal.
      assert (E : vsub (vadd (A X) (vscal (RtoC c) (map RtoC w))) xs = vadd (vscal a (vsub X xs)) (vscal (RtoC c) (map RtoC w))).
      { rewrite <- HA by auto. assert (L1 := LA X LX). clear - L1 Lw Lx. unfold vsub, vadd, vscal. revert w xs Lw Lx. generalize dependent (A X). 
        induction n as [|n' IH]; intros [|y Y] L1 [|w ws] [|x xs'] Lw Lx; cbn in *; try lia; auto. f_equal; [ring|apply IH; lia]. }
      assert (LD : length (vsub X xs) = n) by (rewrite vsub_length; congruence).
      rewrite E, (re_split n) by (rewrite ?vscal_length; auto). f_equal. rewrite vscal_vscal. cbn [cpow]. rewrite (Cmult_comm a). reflexivity. }
    rewrite mean_plus, (mean_const _ _ M1).
    assert (LV : length (re_part (vscal (cpow a (Datatypes.S k)) (vsub X xs))) = n) by (rewrite re_part_length, vscal_length, vsub_length; congruence).
    assert (N := noise_second S n v false (c * Re (cpow a k)) _ W LV). cbn [per_step expect noise_of nth] in N. rewrite N. cbn [INR re_geom]. ring.
Qed.
End ReIter.

Lemma it_length : forall (A : vec -> vec) c b n, (forall X, length X = n -> length (A X) = n) ->
  forall k X l, length X = n -> (forall w, In w l -> length w = n) -> (per_step b * k <= length l)%nat ->
  length (it A c b k X l) = n.
Proof.
  intros A c b n LA. induction k as [|k IH]; intros X l LX T HL; [exact LX|]. cbn [it]. apply IH.
  - assert (E : l = firstn (per_step b) l ++ skipn (per_step b) l) by (symmetry; apply firstn_skipn).
    rewrite E, noise_of_app by (rewrite firstn_length; lia). apply (next_length _ c b n LA); auto.
    split; [rewrite firstn_length; lia|intros w Hw; apply T; rewrite E; apply in_or_app; auto].
  - intros w Hw. apply T. rewrite <- (firstn_skipn (per_step b) l). apply in_or_app; auto.
  - rewrite skipn_length. lia.
Qed.

(** ** the sum of the squared real parts *)

Definition csq (a : C) : R := fst a ^ 2 + snd a ^ 2.
Lemma csq_mult : forall a b, csq (a * b)%C = csq a * csq b.
Proof. intros (a & a') (b & b'). unfold csq. cbn. ring. Qed.
Lemma csq_cpow : forall a k, csq (cpow a k) = csq a ^ k.
Proof. intros a k. induction k as [|k IH]; cbn [cpow pow]; [unfold csq; cbn; ring|]. rewrite csq_mult, IH. reflexivity. Qed.
Lemma csq_nonneg : forall a, 0 <= csq a.
Proof. intros a. unfold csq. generalize (pow2_ge_0 (fst a)) (pow2_ge_0 (snd a)). lra. Qed.

(** with b = 1 - a^2: twice the sum is sum |a|^(2i) + Re ((1 - a^(2k)) / b) *)
Lemma re_geom_value : forall a k, let b := (RtoC 1 - a * a)%C in let e := (cpow a k * cpow a k)%C in
  csq b * (2 * re_geom a k - geom (csq a) k) = fst b * (1 - fst e) - snd b * snd e.
Proof.
  intros a k b. induction k as [|k IH]; cbn zeta in *.
  - cbn [cpow re_geom geom]. cbn. ring.
  - rewrite geom_last. cbn [re_geom]. rewrite <- csq_cpow. cbn [cpow].
    transitivity (csq b * (2 * re_geom a k - geom (csq a) k) + csq b * (2 * Re (cpow a k) ^ 2 - csq (cpow a k))); [ring|].
    rewrite IH. clear IH. destruct (cpow a k) as (x & y). unfold b, csq, Re. destruct a as (p & r). cbn. ring.
Qed.

Lemma cpow_small : forall a k, fst (cpow a k * cpow a k)%C ^ 2 <= (csq a ^ 2) ^ k /\ snd (cpow a k * cpow a k)%C ^ 2 <= (csq a ^ 2) ^ k.
Proof.
  intros a k. assert (E : csq (cpow a k * cpow a k)%C = (csq a ^ 2) ^ k).
  { rewrite csq_mult, csq_cpow, <- pow_mult, Nat.mul_comm, pow_mult. ring. }
  rewrite <- E. unfold csq. generalize (pow2_ge_0 (fst (cpow a k * cpow a k)%C)) (pow2_ge_0 (snd (cpow a k * cpow a k)%C)). lra.
Qed.

Lemma sq_to_zero : forall (u : nat -> R) r, 0 <= r < 1 -> (forall k, u k ^ 2 <= (r ^ 2) ^ k) -> is_lim_seq u 0.
Proof.
  intros u r (R0 & R1) H. apply is_lim_seq_abs_0. apply (is_lim_seq_le_le (fun _ => 0) _ (fun k => r ^ k)).
  - intros k. split; [apply Rabs_pos|]. apply Rsqr_incr_0; [|apply Rabs_pos|apply pow_le; auto]. rewrite !Rsqr_pow2, pow2_abs.
    eapply Rle_trans; [apply H|]. rewrite <- !pow_mult, Nat.mul_comm. apply Rle_refl.
  - apply is_lim_seq_const.
  - apply is_lim_seq_geom. rewrite Rabs_pos_eq; auto.
Qed.

Lemma re_geom_limit : forall a, csq a < 1 -> let b := (RtoC 1 - a * a)%C in
  is_lim_seq (re_geom a) ((/ (1 - csq a) + fst b / csq b) / 2).
Proof.
  intros a Ha b. assert (C0 := csq_nonneg a).
  assert (NB : csq b <> 0).
  { intros E. unfold csq in E. assert (Q1 := pow2_ge_0 (fst b)). assert (Q2 := pow2_ge_0 (snd b)).
    assert (F : fst b = 0) by nra. assert (Ea : csq (a * a)%C = csq a * csq a) by apply csq_mult.
    unfold b in F. cbn in F. assert (F' : fst (a * a)%C = 1) by (cbn; lra). unfold csq in Ea at 1. rewrite F' in Ea.
    assert (Q3 := pow2_ge_0 (snd (a * a)%C)). nra. }
  set (e := fun k => (cpow a k * cpow a k)%C).
  assert (L1 : is_lim_seq (fun k => fst (e k)) 0) by (apply (sq_to_zero _ (csq a)); [split; auto|intros k; apply cpow_small]).
  assert (L2 : is_lim_seq (fun k => snd (e k)) 0) by (apply (sq_to_zero _ (csq a)); [split; auto|intros k; apply cpow_small]).
  assert (P : is_lim_seq (fun k => csq a ^ k) 0) by (apply is_lim_seq_geom; rewrite Rabs_pos_eq; auto).
  apply (is_lim_seq_ext (fun k => ((1 - csq a ^ k) * / (1 - csq a) + (fst b * (1 - fst (e k)) - snd b * snd (e k)) * / csq b) * / 2)).
  { intros k. rewrite <- (geom_value (csq a) k). unfold e. assert (V := re_geom_value a k). cbn zeta in V. fold b in V. rewrite <- V. field. split; [auto|lra]. }
  replace ((/ (1 - csq a) + fst b / csq b) / 2) with (((1 - 0) * / (1 - csq a) + (fst b * (1 - 0) - snd b * 0) * / csq b) * / 2) by (field; split; [auto|lra]).
  apply is_lim_seq_mult'; [|apply is_lim_seq_const]. apply is_lim_seq_plus'.
  - apply is_lim_seq_mult'; [|apply is_lim_seq_const]. apply is_lim_seq_minus'; [apply is_lim_seq_const|exact P].
  - apply is_lim_seq_mult'; [|apply is_lim_seq_const]. apply is_lim_seq_minus'.
    + apply is_lim_seq_mult'; [apply is_lim_seq_const|]. apply is_lim_seq_minus'; [apply is_lim_seq_const|exact L1].
    + apply is_lim_seq_mult'; [apply is_lim_seq_const|exact L2].
Qed.

(** outside the unit disc, off the real line, the sum grows without bound *)
Lemma re_geom_grows : forall a, 1 <= csq a -> snd a <> 0 -> exists c, 0 < c /\ forall k, c * INR k <= re_geom a (S k).
Proof.
  intros a Ha Hi. set (al := fst a). set (be := snd a). set (c := be ^ 2 / (1 + al ^ 2 + be ^ 2)).
  assert (B : 0 < be ^ 2) by (apply pow2_gt_0; exact Hi). assert (A0 := pow2_ge_0 al).
  assert (Q : c * (1 + al ^ 2 + be ^ 2) = be ^ 2) by (unfold c; field; lra).
  assert (C0 : 0 < c) by (unfold c; apply Rdiv_lt_0_compat; lra).
  assert (PR : forall x y, c * (x ^ 2 + y ^ 2) <= x ^ 2 + (al * x - be * y) ^ 2).
  { intros x y. assert (C1 : c < be ^ 2) by nra.
    assert (I : (x ^ 2 + (al * x - be * y) ^ 2 - c * (x ^ 2 + y ^ 2)) * (be ^ 2 - c) = ((be ^ 2 - c) * y - al * be * x) ^ 2 + c ^ 2 * x ^ 2).
    { transitivity (((be ^ 2 - c) * y - al * be * x) ^ 2 + x ^ 2 * ((1 + al ^ 2 - c) * (be ^ 2 - c) - al ^ 2 * be ^ 2)); [ring|].
      replace ((1 + al ^ 2 - c) * (be ^ 2 - c) - al ^ 2 * be ^ 2) with (be ^ 2 - c * (1 + al ^ 2 + be ^ 2) + c ^ 2) by ring. rewrite Q. ring. }
    assert (0 <= ((be ^ 2 - c) * y - al * be * x) ^ 2 + c ^ 2 * x ^ 2).
    { assert (J := pow2_ge_0 ((be ^ 2 - c) * y - al * be * x)). assert (J2 := pow2_ge_0 (c * x)). rewrite Rpow_mult_distr in J2. lra. }
    rewrite <- I in H. apply Rmult_le_reg_r with (be ^ 2 - c); [lra|]. nra. }
  assert (PS : forall k, c <= Re (cpow a k) ^ 2 + Re (cpow a (S k)) ^ 2).
  { intros k. apply Rle_trans with (c * csq (cpow a k)).
    - rewrite csq_cpow. assert (1 <= csq a ^ k) by (apply pow_R1_Rle; auto). nra.
    - cbn [cpow]. destruct (cpow a k) as (x & y). unfold csq, Re. cbn [fst snd]. eapply Rle_trans; [apply PR|]. apply Req_le.
      unfold al, be. destruct a as (p & r). cbn. ring. }
  exists (c / 2). split; [lra|]. intros k.
  assert (Z : forall k, c * INR k <= re_geom a k + re_geom a (S k)).
  { clear k. induction k as [|k IH]; [cbn [INR re_geom]; assert (T := pow2_ge_0 (Re (cpow a 0))); lra|].
    rewrite S_INR. cbn [re_geom] in *. specialize (PS k). lra. }
  specialize (Z k). cbn [re_geom] in *. assert (T := pow2_ge_0 (Re (cpow a k))). lra.
Qed.

(** ** the factor *)

Lemma half_sqrt2 : (/ sqrt 2) ^ 2 = 1 / 2.
Proof. assert (P := sqrt2_pos). assert (S2 : sqrt 2 ^ 2 = 2) by (apply pow2_sqrt; lra). rewrite pow_inv, S2. lra. Qed.
Lemma two_inv_sqrt2 : 2 * / sqrt 2 = sqrt 2.
Proof. assert (P := sqrt2_pos). assert (S2 : sqrt 2 * sqrt 2 = 2) by (apply sqrt_sqrt; lra). rewrite <- S2 at 1. field. lra. Qed.
Lemma turned_factor_csq : forall delta w, let t := delta * w in csq (turned_factor delta w) = 1 - t * (sqrt 2 - t).
Proof.
  intros delta w t. unfold csq, turned_factor, turn. cbn. fold t. assert (H := half_sqrt2). assert (E2 := two_inv_sqrt2).
  set (h := / sqrt 2) in *. rewrite <- E2. clearbody h. transitivity (1 - 2 * t * h + 2 * t ^ 2 * h ^ 2); [ring|]. rewrite H. field.
Qed.
Lemma turned_factor_b : forall delta w, let t := delta * w in let b := (RtoC 1 - turned_factor delta w * turned_factor delta w)%C in
  fst b = sqrt 2 * t /\ csq b = t ^ 2 * (4 - 2 * sqrt 2 * t + t ^ 2).
Proof.
  intros delta w t. unfold csq, turned_factor, turn. cbn. fold t. assert (H := half_sqrt2). assert (E2 := two_inv_sqrt2).
  set (h := / sqrt 2) in *. rewrite <- E2. clearbody h. split; [ring|].
  transitivity (8 * t ^ 2 * h ^ 2 - 8 * t ^ 3 * h * h ^ 2 + 4 * t ^ 4 * (h ^ 2) ^ 2); [ring|]. rewrite H. field.
Qed.
