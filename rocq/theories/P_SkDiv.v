(** C61: SKROCK chains with two or more stages move apart. *)
From Coq Require Import List ZArith Lia Bool Reals Lra Psatz String.
From Coquelicot Require Import Coquelicot.
From Verif Require Import PyBase PyBaseFacts CVec Thresh ThreshSpec ThreshProof OpSpec Utils UtilsSpec UtilsProof Prior PriorProof Forward
  McmcSpec FwdProof Sampler SamplerSpec SamplerFacts SamplerMain Mcmc StepProof SkProof P_Samplers P_Mcmc P_Works StableProof P_Stable
  MomentSpec MomentProof P_Moments SkDivProof.
Import ListNotations.
Notation length := List.length.
Open Scope R_scope.

(** ** the coefficients *)

Lemma cheb2_from_cheb1 : forall x B, 1 <= B -> forall k, (forall i, (i <= S k)%nat -> cheb1_rec x i <= B) ->
  cheb2_rec x k <= B * INR (S k) /\ cheb2_rec x (S k) <= B * INR (S (S k)).
Proof.
  intros x B HB. induction k as [|k IH]; intros H.
  - assert (H1 := H 1%nat ltac:(lia)). cbn in *. lra.
  - destruct (IH ltac:(intros; apply H; lia)) as (A1 & A2). split; [exact A2|].
    assert (H2 := H (S (S k)) ltac:(lia)). rewrite cheb12, cheb2_SS in H2. rewrite cheb2_SS.
    rewrite !S_INR in *. nra.
Qed.

Lemma sk_coefs : forall q m, n_s q = Z.of_nat m -> (2 <= m)%nat ->
  exists w1 r, omega_1 q = Ok w1 /\ 0 < w1 /\ 1000 / 1055 <= w1 * (INR m * INR m) <= 1055 / 1000 /\
    coef q 1 = Ok (w1 / omega_0 q, INR m * w1 / 2, INR m * w1 / omega_0 q) /\
    (forall j, (2 <= j <= m)%nat -> coef q j = Ok (2 * w1 * r j, 2 * omega_0 q * r j, 1) /\ 1 <= Rabs (r j)) /\ r 2%nat <= -1.
Proof.
  intros q m Hs Hm. destruct (omega_1_ok q m Hs ltac:(lia)) as (w & Ew & W0 & WB). assert (WO := omega_0_ge q m Hs ltac:(lia)).
  assert (M : 2 <= INR m) by (change 2 with (INR 2); apply le_INR; auto).
  assert (W1 : w <= 3 / 10) by nra.
  exists w, (fun j => cheb1_rec (omega_0 q) (j - 1) / cheb1_rec w j).
  assert (LOW : 1000 / 1055 <= w * (INR m * INR m)).
  { set (e := 5 / 100 / (INR m * INR m)).
    assert (E0 : omega_0 q = 1 + e) by (unfold omega_0, eta, e; rewrite Hs, <- INR_IZR_INZ; reflexivity).
    assert (He : INR m * INR m * e = 5 / 100) by (unfold e; field; lra). assert (He0 : 0 <= e) by nra.
    assert (TB : forall i, (i <= m)%nat -> cheb1_rec (omega_0 q) i <= 1055 / 1000).
    { intros i Hi. destruct (cheb1_small m e He0 ltac:(lra) i Hi) as (T2 & _). rewrite E0. eapply Rle_trans; [exact T2|].
      assert (0 <= INR i) by apply pos_INR. assert (INR i <= INR m) by (apply le_INR; auto).
      assert (INR i * INR i <= INR m * INR m) by nra. nra. }
    destruct (cheb2_from_cheb1 (omega_0 q) (1055 / 1000) ltac:(lra) (m - 2) ltac:(intros; apply TB; lia)) as (_ & UB).
    replace (S (m - 2)) with (m - 1)%nat in UB by lia. replace (S (m - 1)) with m in UB by lia.
    destruct (cheb1_mono _ WO m) as (T & _). destruct (cheb2_big _ WO (m - 1)) as (U & _). replace (S (m - 1)) with m in U by lia.
    unfold omega_1, chebyshev1, cheb1der, chebyshev2 in Ew. rewrite Hs in Ew.
    destruct (Z.eqb_spec (Z.of_nat m) 0); [lia|]. destruct (Z.ltb_spec (Z.of_nat m) 0); [lia|].
    destruct (Z.ltb_spec (Z.of_nat m - 1) 0); [lia|]. cbn [rbind] in Ew. rewrite Nat2Z.id in Ew.
    replace (Z.to_nat (Z.of_nat m - 1)) with (m - 1)%nat in Ew by lia. rewrite <- INR_IZR_INZ in Ew.
    set (t := cheb1_rec (omega_0 q) m) in *. set (u := cheb2_rec (omega_0 q) (m - 1)) in *.
    destruct (Req_EM_T (INR m * u) 0); [discriminate|]. injection Ew as <-.
    assert (P : 0 < u) by lra.
    replace (t / (INR m * u) * (INR m * INR m)) with (t * INR m / u) by (field; lra).
    apply (Rmult_le_reg_r u); [auto|]. replace (t * INR m / u * u) with (t * INR m) by (field; lra). nra. }
  split; [exact Ew|]. split; [exact W0|]. split; [split; auto|]. split; [|split].
  - unfold coef. rewrite Ew. cbn [rbind]. rewrite Hs, <- INR_IZR_INZ. reflexivity.
  - intros j Hj. destruct (coef_ok q m Hs Hm j Hj) as (mu & nu & E & _ & _).
    assert (T1 : -1 <= cheb1_rec w j <= 1).
    { replace w with (cos (acos w)) by (apply cos_acos; lra). rewrite cheb1_cos. apply COS_bound. }
    destruct (cheb1_mono _ WO (j - 1)) as (T & _).
    assert (NZ : cheb1_rec w j <> 0 /\ coef q j = Ok (2 * w * (cheb1_rec (omega_0 q) (j - 1) / cheb1_rec w j), 2 * omega_0 q * (cheb1_rec (omega_0 q) (j - 1) / cheb1_rec w j), 1)).
    { unfold coef in *. rewrite Ew in *. cbn [rbind] in *. destruct j as [|[|j]]; try lia. unfold chebyshev1 in *.
      destruct (Z.ltb_spec (Z.of_nat (S (S j)) - 1) 0); [lia|]. destruct (Z.ltb_spec (Z.of_nat (S (S j))) 0); [lia|]. cbn [rbind] in *.
      rewrite Nat2Z.id in *. replace (Z.to_nat (Z.of_nat (S (S j)) - 1)) with (S (S j) - 1)%nat in * by lia.
      destruct (Req_EM_T (cheb1_rec w (S (S j))) 0); [discriminate|]. rewrite Rminus_0_r in *. auto. }
    destruct NZ as (NZ & EC). split; [exact EC|].
    unfold Rdiv. rewrite Rabs_mult, Rabs_inv, (Rabs_pos_eq (cheb1_rec (omega_0 q) (j - 1))) by lra.
    assert (A0 : 0 < Rabs (cheb1_rec w j)) by (apply Rabs_pos_lt; auto). assert (A1 : Rabs (cheb1_rec w j) <= 1) by (apply Rabs_le; lra).
    apply (Rmult_le_reg_r (Rabs (cheb1_rec w j))); [auto|]. rewrite Rmult_assoc, Rinv_l by lra. lra.
  - assert (E2 : cheb1_rec w 2 = 2 * w * w - 1) by (rewrite cheb1_SS; reflexivity). rewrite E2. cbn [Nat.sub cheb1_rec].
    assert (NW : 2 * w * w - 1 < 0) by nra. apply (Rmult_le_reg_r (- (2 * w * w - 1))); [lra|].
    replace (omega_0 q / (2 * w * w - 1) * - (2 * w * w - 1)) with (- omega_0 q) by (field; lra). nra.
Qed.

(** ** the stages of a convex problem *)

Lemma drift_lipschitz : forall f pr q n m lo hi X Y, convex_problem f pr n m lo hi -> 0 < n_lmda q -> length X = n -> length Y = n ->
  nm (vsub (drift f pr q X) (drift f pr q Y)) <= (/ n_lmda q + hi) * nm (vsub X Y).
Proof.
  intros f pr q n m lo hi X Y CP Hl LX LY.
  destruct (problem_parts f pr q n m lo hi X CP LX) as (d & gr & p & A1 & A2 & A3 & A4 & A5 & _ & A7 & A8).
  destruct (problem_parts f pr q n m lo hi Y CP LY) as (d' & gr' & p' & B1 & B2 & B3 & B4 & B5 & _ & B7 & B8).
  destruct CP as (EN & LM & HW & LD & (MP & FR) & Lo & Hi & CB).
  destruct (gradg_cocoercive f n m lo hi X Y d d' gr gr' LM HW LD Lo Hi CB LX LY A1 B1 A2 B2) as (C1 & _). cbv zeta in C1.
  assert (C2 := FR X Y p p' LX LY A3 B3). cbv zeta in C2.
  assert (K : forall a b : vec, length a = n -> length b = n -> length (vsub a b) = n) by (intros; rewrite vsub_length; congruence).
  set (D := vsub X Y) in *. set (g := vsub gr gr') in *. set (r := vsub (vsub X p) (vsub Y p')) in *.
  assert (LD' : length D = n) by (apply K; auto). assert (Lg : length g = n) by (apply K; auto). assert (Lr : length r = n) by (apply K; apply K; auto).
  assert (E : vsub (drift f pr q X) (drift f pr q Y) = vscal (RtoC (-1)) (vadd (vscal (RtoC (/ n_lmda q)) r) g)).
  { rewrite A8, B8. unfold langevin_drift, r, g. clear - LX LY A4 A5 B4 B5. revert X Y p p' gr gr' LX LY A4 A5 B4 B5. unfold vsub, vadd, vscal.
    induction n as [|k IH]; intros [|x X] [|y Y] [|p p1] [|p' p1'] [|g gr] [|g' gr'] L1 L2 L3 L4 L5 L6; cbn in *; try lia; [reflexivity|].
    f_equal; [|apply IH; lia]. apply C_ext; cbn; ring. }
  rewrite E, nm_vscal, Rabs_left by lra. assert (ND := nm_nonneg D). assert (Ng := nm_nonneg g). assert (Nr := nm_nonneg r).
  assert (Q1 := cauchy g D ltac:(congruence)). assert (Q2 := cauchy r D ltac:(congruence)).
  rewrite <- nm_sq in C1, C2.
  assert (R1 : nm r <= nm D) by nra.
  assert (G1 : nm g <= hi * nm D).
  { destruct (Rle_dec (nm g) (hi * nm D)); [auto|]. assert (0 < nm g) by nra. nra. }
  assert (T := nm_vadd (vscal (RtoC (/ n_lmda q)) r) g ltac:(rewrite vscal_length; congruence)). rewrite nm_vscal in T.
  assert (I0 := Rinv_0_lt_compat _ Hl). rewrite (Rabs_pos_eq (/ n_lmda q)) in T by lra.
  assert (/ n_lmda q * nm r <= / n_lmda q * nm D) by (apply Rmult_le_compat_l; lra). lra.
Qed.

Lemma K_stage : forall f pr q n m mm lo hi delta w1 r, convex_problem f pr n mm lo hi ->
  coef q 1 = Ok (w1 / omega_0 q, INR m * w1 / 2, INR m * w1 / omega_0 q) ->
  (forall j, (2 <= j <= m)%nat -> coef q j = Ok (2 * w1 * r j, 2 * omega_0 q * r j, 1)) ->
  forall j X Z, (j <= m)%nat -> length X = n -> length Z = n ->
  K_recursion f pr q delta X j Z = Ok (stage (drift f pr q) m (omega_0 q) w1 delta r j X Z).
Proof.
  intros f pr q n m mm lo hi delta w1 r CP C1 CJ.
  assert (GL : forall x, length x = n -> gradlogpi f pr q x None = Ok (drift f pr q x) /\ length (drift f pr q x) = n).
  { intros x Lx. destruct (problem_parts f pr q n mm lo hi x CP Lx) as (_ & _ & _ & _ & _ & _ & _ & _ & A & B & _). auto. }
  intros j X Z Hj LX LZ.
  assert (H : (j <= m)%nat -> K_recursion f pr q delta X j Z = Ok (stage (drift f pr q) m (omega_0 q) w1 delta r j X Z) /\
    ((S j <= m)%nat -> K_recursion f pr q delta X (S j) Z = Ok (stage (drift f pr q) m (omega_0 q) w1 delta r (S j) X Z))); [|destruct (H Hj); auto].
  clear Hj. assert (SL := stage_length (drift f pr q) n m (omega_0 q) w1 delta r (fun x Lx => proj2 (GL x Lx))).
  induction j as [|j IH]; intros Hj.
  - split; [reflexivity|]. intros _. cbn [K_recursion stage]. unfold first. rewrite C1. cbn [rbind].
    rewrite np_add_same by (rewrite vscal_length; congruence). cbn [rbind].
    assert (L1 : length (vadd X (vscal (RtoC (INR m * w1 / 2 * sqrt (2 * delta))) Z)) = n) by (rewrite vadd_length; rewrite ?vscal_length; congruence).
    destruct (GL _ L1) as (E1 & L2). rewrite E1. cbn [rbind]. rewrite np_add_same by (rewrite vscal_length; congruence). cbn [rbind].
    rewrite np_add_same; [reflexivity|]. rewrite vadd_length; rewrite ?vscal_length; congruence.
  - destruct IH as (I1 & I2); [lia|]. specialize (I2 Hj). split; [exact I2|]. intros Hj2.
    change (K_recursion f pr q delta X (S (S j)) Z) with
      (let* c := coef q (S (S j)) in let '(mu, nu, k) := c in
       let* K1 := K_recursion f pr q delta X (S j) Z in
       let* gr := gradlogpi f pr q K1 None in
       let* a := np_add (vscal (RtoC (mu * delta)) gr) (vscal (RtoC nu) K1) in
       let* K2 := K_recursion f pr q delta X j Z in
       np_sub (vshift (RtoC k) a) K2).
    rewrite CJ by lia. cbn [rbind]. rewrite I2. cbn [rbind]. assert (LK := SL (S j) X Z LX LZ). destruct (GL _ LK) as (E1 & L2). rewrite E1. cbn [rbind].
    rewrite np_add_same by (rewrite !vscal_length; congruence). cbn [rbind]. rewrite I1. cbn [rbind].
    rewrite np_sub_same; [reflexivity|]. unfold vshift. rewrite map_length, vadd_length; rewrite ?vscal_length, ?SL; auto; congruence.
Qed.

(** step sizes far below the bound 2 of C56 for MYULA *)
Definition small_step (q : numparams) (hi delta : R) : Prop := 0 <= delta /\ 22 * (delta * (/ n_lmda q + hi)) <= 1.

Lemma sk_setup : forall f pr q n mm lo hi s delta, convex_problem f pr n mm lo hi -> 0 < n_lmda q -> small_step q hi delta ->
  n_s q = Z.of_nat s -> (2 <= s)%nat ->
  exists w1 r, 0 < w1 /\ 1000 / 1055 <= w1 * (INR s * INR s) /\ (forall j, (2 <= j <= s)%nat -> 1 <= Rabs (r j)) /\ r 2%nat <= -1 /\
    1 <= omega_0 q <= 10125 / 10000 /\ 0 <= w1 * delta * (/ n_lmda q + hi) <= omega_0 q - 1 /\
    w1 * delta * (/ n_lmda q + hi) <= 125 / 10000 /\
    forall j X Z, (j <= s)%nat -> length X = n -> length Z = n ->
      K_recursion f pr q delta X j Z = Ok (stage (drift f pr q) s (omega_0 q) w1 delta r j X Z).
Proof.
  intros f pr q n mm lo hi s delta CP Hl (Hd & HS) Es Hs2.
  destruct (sk_coefs q s Es Hs2) as (w1 & r & _ & W0 & (WL & WU) & C1 & CJ & R2). exists w1, r.
  assert (Hi : 0 < hi) by apply CP. assert (I0 := Rinv_0_lt_compat _ Hl). set (L := / n_lmda q + hi) in *.
  assert (M : 2 <= INR s) by (change 2 with (INR 2); apply le_INR; auto).
  assert (M4 : 4 <= INR s * INR s) by nra. set (mm2 := INR s * INR s) in *.
  assert (E0 : omega_0 q = 1 + 5 / 100 / mm2) by (unfold omega_0, eta, mm2; rewrite Es, <- INR_IZR_INZ; reflexivity).
  assert (DL : 0 <= delta * L <= 1 / 22) by (split; [apply Rmult_le_pos; unfold L; lra|lra]).
  assert (EQ : w1 * delta * L = w1 * mm2 * (delta * L) / mm2) by (field; lra).
  assert (I2 : 0 < / mm2) by (apply Rinv_0_lt_compat; lra).
  assert (I4 : / mm2 <= / 4) by (apply Rinv_le_contravar; lra).
  assert (N : w1 * mm2 * (delta * L) <= 5 / 100) by nra.
  assert (P0 : 0 <= w1 * mm2 * (delta * L)) by (apply Rmult_le_pos; nra).
  split; [auto|]. split; [auto|]. split; [intros; apply CJ; auto|]. split; [auto|].
  split; [rewrite E0; unfold Rdiv; split; nra|]. split; [rewrite E0, EQ; unfold Rdiv; split; nra|].
  split; [rewrite EQ; unfold Rdiv; nra|]. apply (K_stage f pr q n s mm lo hi); auto. intros j Hj. apply CJ; auto.
Qed.

Lemma nm_to_nrm2 : forall c x y, 0 <= c -> c * nm x <= nm y -> c ^ 2 * nrm2 x <= nrm2 y.
Proof.
  intros c x y Hc H. rewrite <- !nm_sq. assert (A := nm_nonneg x). assert (B := nm_nonneg y).
  assert (0 <= c * nm x) by (apply Rmult_le_pos; auto). replace (c ^ 2 * nm x ^ 2) with ((c * nm x) ^ 2) by ring.
  apply pow_incr. lra.
Qed.

(** ** one step *)

Theorem C61_step : forall G (R0 : rng G) f pr q n m lo hi s delta X Y g X' Y' g1 g2,
  good_rng R0 -> convex_problem f pr n m lo hi -> 0 < n_lmda q -> small_step q hi delta -> n_s q = Z.of_nat s -> (2 <= s)%nat ->
  length X = n -> length Y = n ->
  skrock_step R0 f pr q delta X g = (Ok X', g1) -> skrock_step R0 f pr q delta Y g = (Ok Y', g2) ->
  g1 = g2 /\ length X' = n /\ length Y' = n /\ INR s ^ 2 * nrm2 (vsub X Y) <= nrm2 (vsub X' Y').
Proof.
  intros G R0 f pr q n m lo hi s delta X Y g X' Y' g1 g2 GR CP Hl SS Es Hs LX LY EX EY.
  destruct (sk_setup f pr q n m lo hi s delta CP Hl SS Es Hs) as (w1 & r & W1 & _ & RJ & R2 & (O1 & _) & (K0 & K1) & K2 & KR).
  rewrite C16_step in EX, EY. rewrite LX in EX. rewrite LY in EY.
  assert (LW : length (fst (noise R0 (n_complex q) n g)) = n).
  { unfold noise. destruct (GR n g) as (L1 & _). destruct (GR n (snd (g_randn R0 n g))) as (L2 & _).
    destruct (n_complex q); cbn; [rewrite map2_length; congruence|rewrite map_length; auto]. }
  destruct (noise R0 (n_complex q) n g) as (Z & g'). cbn in LW. rewrite Es, Nat2Z.id in EX, EY.
  rewrite KR in EX, EY by auto. injection EX as <- <-. injection EY as <- <-.
  assert (LG : forall x, length x = n -> length (drift f pr q x) = n).
  { intros x Lx. destruct (problem_parts f pr q n m lo hi x CP Lx) as (_ & _ & _ & _ & _ & _ & _ & _ & _ & B & _). auto. }
  assert (SL := stage_length (drift f pr q) n s (omega_0 q) w1 delta r LG).
  split; [reflexivity|]. split; [auto|]. split; [auto|]. apply nm_to_nrm2; [apply pos_INR|].
  assert (Hi : 0 < hi) by apply CP. assert (I0 := Rinv_0_lt_compat _ Hl).
  apply (sample_grows (drift f pr q) n s (omega_0 q) w1 delta r LG (/ n_lmda q + hi)); auto; try lra.
  - intros; eapply drift_lipschitz; eauto.
  - apply SS.
Qed.
Print Assumptions C61_step.

(** ** any number of steps *)

Theorem C61_paths : forall G (R0 : rng G) f pr q n m lo hi s delta,
  good_rng R0 -> convex_problem f pr n m lo hi -> 0 < n_lmda q -> small_step q hi delta -> n_s q = Z.of_nat s -> (2 <= s)%nat ->
  let trans := skrock_trans (mcmc_ops R0 f pr q) delta in
  forall tr1 tr2 X dX Y dY g, length X = n -> length Y = n -> path trans (X, dX, g) tr1 -> path trans (Y, dY, g) tr2 ->
  forall k X' d1 g1 Y' d2 g2, nth_error tr1 k = Some (X', d1, g1) -> nth_error tr2 k = Some (Y', d2, g2) ->
    g1 = g2 /\ length X' = n /\ length Y' = n /\ (INR s ^ 2) ^ (k + 1) * nrm2 (vsub X Y) <= nrm2 (vsub X' Y').
Proof.
  intros G R0 f pr q n m lo hi s delta GR CP Hl SS Es Hs trans.
  induction tr1 as [|s1 tr1 IH]; intros tr2 X dX Y dY g LX LY P1 P2 k X' d1 g1 Y' d2 g2 N1 N2; [destruct k; discriminate|].
  destruct tr2 as [|s2 tr2]; [destruct k; discriminate|].
  destruct (path_inv _ _ _ _ P1) as (T1 & Q1). destruct (path_inv _ _ _ _ P2) as (T2 & Q2).
  destruct s1 as ((x1 & e1) & h1). destruct s2 as ((x2 & e2) & h2).
  destruct T1 as (S1 & F1). destruct T2 as (S2 & F2). cbn [mcmc_ops o_skstep o_forward] in *.
  destruct (C61_step G R0 f pr q n m lo hi s delta X Y g x1 x2 h1 h2 GR CP Hl SS Es Hs LX LY S1 S2) as (<- & Lx1 & Lx2 & D).
  destruct k as [|k].
  - cbn in N1, N2. injection N1 as <- <- <-. injection N2 as <- <- <-. rewrite pow_1. auto.
  - destruct (IH tr2 x1 e1 x2 e2 h1 Lx1 Lx2 Q1 Q2 k X' d1 g1 Y' d2 g2 N1 N2) as (E & L1 & L2 & D').
    split; [auto|]. split; [auto|]. split; [auto|].
    eapply Rle_trans; [|exact D']. cbn [Nat.add]. change ((INR s ^ 2) ^ S (k + 1)) with (INR s ^ 2 * (INR s ^ 2) ^ (k + 1)).
    rewrite (Rmult_comm (INR s ^ 2)), Rmult_assoc. apply Rmult_le_compat_l; [apply pow_le, pow2_ge_0|exact D].
Qed.
Print Assumptions C61_paths.

(** ** the saved chains *)

Definition real_vec (x : vec) : Prop := forall z, In z x -> Im z = 0.
(** real samples have real gradients: needed for a chain with complex=False,
    whose array keeps the real parts only *)
Definition real_drift (f : forward_op) (pr : prior_obj) (q : numparams) (n : nat) : Prop :=
  forall Y g, length Y = n -> real_vec Y -> gradlogpi f pr q Y None = Ok g -> real_vec g.
Definition faithful (f : forward_op) (pr : prior_obj) (q : numparams) (n : nat) : Prop := n_complex q = true \/ real_drift f pr q n.
Definition faithful_start (q : numparams) (X : vec) : Prop := n_complex q = true \/ real_vec X.

Lemma real_vadd : forall a b, real_vec a -> real_vec b -> real_vec (vadd a b).
Proof.
  unfold real_vec, vadd. induction a as [|x a IH]; intros [|y b] HA HB z Hz; cbn in Hz; try tauto.
  destruct Hz as [<-|Hz]; [|apply (IH b); auto; intros; [apply HA|apply HB]; cbn; auto].
  assert (A := HA x (or_introl eq_refl)). assert (B := HB y (or_introl eq_refl)). destruct x, y. unfold Im in *; cbn in *. lra.
Qed.
Lemma real_vscal : forall (t : R) a, real_vec a -> real_vec (vscal (RtoC t) a).
Proof.
  unfold real_vec, vscal. intros t a H z Hz. apply in_map_iff in Hz. destruct Hz as (y & <- & Hy). specialize (H y Hy).
  destruct y. unfold Im in *; cbn in *. rewrite H. ring.
Qed.
Lemma real_vsub : forall a b, real_vec a -> real_vec b -> real_vec (vsub a b).
Proof.
  unfold real_vec, vsub. induction a as [|x a IH]; intros [|y b] HA HB z Hz; cbn in Hz; try tauto.
  destruct Hz as [<-|Hz]; [|apply (IH b); auto; intros; [apply HA|apply HB]; cbn; auto].
  assert (A := HA x (or_introl eq_refl)). assert (B := HB y (or_introl eq_refl)). destruct x, y. unfold Im in *; cbn in *. lra.
Qed.
Lemma real_vshift : forall (t : R) a, real_vec a -> real_vec (vshift (RtoC t) a).
Proof.
  unfold real_vec, vshift. intros t a H z Hz. apply in_map_iff in Hz. destruct Hz as (y & <- & Hy). specialize (H y Hy).
  destruct y. unfold Im in *; cbn in *. lra.
Qed.
Lemma real_stage : forall f pr q n m w0 w1 delta r, (forall x, length x = n -> length (drift f pr q x) = n) ->
  (forall x, length x = n -> real_vec x -> real_vec (drift f pr q x)) ->
  forall j X Z, length X = n -> length Z = n -> real_vec X -> real_vec Z -> real_vec (stage (drift f pr q) m w0 w1 delta r j X Z).
Proof.
  intros f pr q n m w0 w1 delta r LG RD j X Z LX LZ HX HZ. assert (SL := stage_length (drift f pr q) n m w0 w1 delta r LG).
  assert (H : real_vec (stage (drift f pr q) m w0 w1 delta r j X Z) /\ real_vec (stage (drift f pr q) m w0 w1 delta r (S j) X Z)); [|tauto].
  induction j as [|j (A & B)].
  - split; [exact HX|]. cbn [stage]. unfold first. apply real_vadd; [apply real_vadd; [auto|]|]; apply real_vscal; auto.
    apply RD; [rewrite vadd_length; rewrite ?vscal_length; congruence|]. apply real_vadd; auto. apply real_vscal; auto.
  - split; [exact B|]. rewrite stage_SS. unfold later. apply real_vsub; auto. apply real_vshift, real_vadd; apply real_vscal; auto.
Qed.
Lemma st_real : forall b x, (b = true \/ real_vec x) -> st b x = x.
Proof.
  intros b x [->|H]; [reflexivity|]. unfold st. destruct b; [reflexivity|]. induction x as [|z x IH]; [reflexivity|]. cbn. f_equal.
  - assert (E := H z (or_introl eq_refl)). destruct z. unfold Im in E. cbn in E. subst. reflexivity.
  - apply IH. intros y Hy. apply H. cbn; auto.
Qed.

Section Paths.
Context {G : Type}.
Variables (R0 : rng G) (f : forward_op) (pr : prior_obj) (q : numparams) (n m s : nat) (lo hi delta : R).
Hypothesis GR : good_rng R0.
Hypothesis CP : convex_problem f pr n m lo hi.
Hypothesis Hl : 0 < n_lmda q.
Hypothesis SS : small_step q hi delta.
Hypothesis Es : n_s q = Z.of_nat s.
Hypothesis Hs : (2 <= s)%nat.
Hypothesis FA : faithful f pr q n.

Lemma drift_len : forall x, length x = n -> length (drift f pr q x) = n.
Proof. intros x Lx. destruct (problem_parts f pr q n m lo hi x CP Lx) as (_ & _ & _ & _ & _ & _ & _ & _ & _ & B & _). auto. Qed.
Lemma drift_real : n_complex q = true \/ forall x, length x = n -> real_vec x -> real_vec (drift f pr q x).
Proof.
  destruct FA as [H|H]; [auto|]. right. intros x Lx Rx. destruct (problem_parts f pr q n m lo hi x CP Lx) as (_ & _ & _ & _ & _ & _ & _ & _ & E & _).
  eapply H; eauto.
Qed.

Lemma noise_faithful : forall g, length (fst (noise R0 (n_complex q) n g)) = n /\ faithful_start q (fst (noise R0 (n_complex q) n g)).
Proof.
  intros g. unfold noise, faithful_start. destruct (GR n g) as (L1 & _). destruct (GR n (snd (g_randn R0 n g))) as (L2 & _).
  destruct (n_complex q); cbn; [split; [rewrite map2_length; congruence|auto]|]. split; [rewrite map_length; auto|]. right.
  intros z Hz. apply in_map_iff in Hz. destruct Hz as (x & <- & _). reflexivity.
Qed.

Lemma step_faithful : forall X g X' g', length X = n -> faithful_start q X -> skrock_step R0 f pr q delta X g = (Ok X', g') ->
  length X' = n /\ faithful_start q X'.
Proof.
  intros X g X' g' LX FX E. rewrite C16_step, LX in E. destruct (noise_faithful g) as (LZ & FZ).
  destruct (noise R0 (n_complex q) n g) as (Z & g1). cbn [fst] in *. rewrite Es, Nat2Z.id in E.
  destruct (sk_setup f pr q n m lo hi s delta CP Hl SS Es Hs) as (w1 & r & _ & _ & _ & _ & _ & _ & _ & KR). rewrite KR in E by auto. injection E as <- <-.
  split; [apply (stage_length _ n); auto; apply drift_len|].
  destruct (n_complex q) eqn:EC; [left; auto|]. destruct drift_real as [H|RD]; [congruence|].
  destruct FX as [H|FX]; [congruence|]. destruct FZ as [H|FZ]; [congruence|]. right. apply (real_stage f pr q n); auto. apply drift_len.
Qed.

Lemma path_faithful : forall tr X d g, path (skrock_trans (mcmc_ops R0 f pr q) delta) (X, d, g) tr -> length X = n -> faithful_start q X ->
  forall k X' d' g', nth_error tr k = Some (X', d', g') -> length X' = n /\ faithful_start q X'.
Proof.
  induction tr as [|s1 tr IH]; intros X d g P LX FX k X' d' g' N; [destruct k; discriminate|].
  destruct (path_inv _ _ _ _ P) as (T & Q). destruct s1 as ((x1 & e1) & h1). destruct T as (S1 & F1). cbn [mcmc_ops o_skstep] in S1.
  destruct (step_faithful X g x1 h1 LX FX S1) as (L1 & FA1). destruct k as [|k]; cbn in N; [injection N as <- <- <-; auto|]. eapply IH; eauto.
Qed.
End Paths.

(** the rows of two completed runs that differ in the starting point only *)
Theorem C61_runs : forall G (R0 : rng G) f pr q prm n m lo hi s N fuel1 fuel2 sh1 sh2 X Y w1 w2 w1' w2' c1 c2,
  let o := mcmc_ops R0 f pr q in let delta := i_delta (w_inst w1) in
  good_rng R0 -> convex_problem f pr n m lo hi -> 0 < n_lmda q -> small_step q hi delta -> n_s q = Z.of_nat s -> (2 <= s)%nat ->
  faithful f pr q n -> faithful_start q X -> faithful_start q Y ->
  sized (w_inst w1) N -> sized (w_inst w2) N -> p_nsamples prm = Z.of_nat N -> i_delta (w_inst w2) = delta -> w_rng w1 = w_rng w2 ->
  skrock_run o prm fuel1 (StartArray sh1 X) w1 = (w1', Ret tt) -> skrock_run o prm fuel2 (StartArray sh2 Y) w2 = (w2', Ret tt) ->
  i_chain (w_inst w1') = Some c1 -> i_chain (w_inst w2') = Some c2 ->
  forall j r1 r2, (j < N)%nat -> nth_error c1 j = Some r1 -> nth_error c2 j = Some r2 ->
    (INR s ^ 2) ^ steps_to prm j * nrm2 (vsub X Y) <= nrm2 (vsub r1 r2).
Proof.
  intros G R0 f pr q prm n m lo hi s N fuel1 fuel2 sh1 sh2 X Y w1 w2 w1' w2' c1 c2 o delta GR CP Hl SS Es Hs FA FX FY Z1 Z2 EN ED ER
    M1 M2 EC1 EC2 j r1 r2 Hj H1 H2.
  destruct (C01_skrock_schedule _ _ _ _ _ _ o prm fuel1 _ w1 w1' N Z1 EN M1) as (s1 & tr1 & l1 & S1 & P1 & T1 & _ & L1 & _ & R1 & V1).
  destruct (C01_skrock_schedule _ _ _ _ _ _ o prm fuel2 _ w2 w2' N Z2 EN M2) as (s2 & tr2 & l2 & S2 & P2 & T2 & _ & L2 & _ & R2 & V2).
  assert (CP' := CP). destruct CP' as (NP & _).
  assert (ST : forall sh B g s, starts o (StartArray sh B) g s -> exists d, s = (B, d, g) /\ length B = n /\ fo_forward f B = Ok d).
  { intros sh B g ((x & d) & g') (I & F). unfold o in I, F. cbn [mcmc_ops o_init o_forward choose_start] in I, F. rewrite NP in I.
    destruct (negb (Nat.eqb (length sh) 1)); [discriminate|]. destruct (Nat.eqb_spec (length B) n); [|discriminate].
    injection I as <- <-. eauto. }
  destruct (ST _ _ _ _ S1) as (dX & -> & LX & EX). destruct (ST _ _ _ _ S2) as (dY & -> & LY & EY). clear ST.
  rewrite ED in P2. fold delta in P1. rewrite <- ER in P2.
  destruct R1 as (_ & _ & _ & _ & R1). destruct R2 as (_ & _ & _ & _ & R2). rewrite EC1 in R1. rewrite EC2 in R2.
  assert (ROW : forall (l : list (entry vec vec C)) old c r, length l = N -> rec_arr (o_rowV o) (map e_X l) old (Some c) -> nth_error c j = Some r ->
            exists e, nth_error l j = Some e /\ o_rowV o (e_X e) = Ok r).
  { clear - Hj. intros l old c r LL RA E. destruct old as [a0|]; [|destruct RA]. destruct RA as (rows & F2 & _ & ->).
    assert (LR := Forall2_length _ _ _ F2). rewrite map_length in LR. rewrite nth_error_app1 in E by lia.
    clear - F2 E. revert rows j F2 E. induction l as [|e l IH]; intros rows j F2 E; inversion F2; subst; [destruct j; discriminate|].
    destruct j as [|j]; cbn in *; [injection E as ->; eauto|]. eapply IH; eauto. }
  destruct (ROW l1 _ _ _ L1 R1 H1) as (u1 & U1 & O1). destruct (ROW l2 _ _ _ L2 R2 H2) as (u2 & U2 & O2). clear ROW.
  destruct (V1 j u1 U1) as (((X' & d1) & g1) & A1 & B1). destruct (V2 j u2 U2) as (((Y' & d2) & g2) & A2 & B2).
  destruct (C61_paths G R0 f pr q n m lo hi s delta GR CP Hl SS Es Hs tr1 tr2 X dX Y dY (w_rng w1) LX LY P1 P2 _ _ _ _ _ _ _ A1 A2)
    as (_ & LX' & LY' & D).
  destruct (path_faithful R0 f pr q n m s lo hi delta GR CP Hl SS Es Hs FA tr1 X dX _ P1 LX FX _ _ _ _ A1) as (_ & FX').
  destruct (path_faithful R0 f pr q n m s lo hi delta GR CP Hl SS Es Hs FA tr2 Y dY _ P2 LY FY _ _ _ _ A2) as (_ & FY').
  assert (E1 : e_X u1 = X') by (destruct u1 as ((? & ?) & ?); destruct B1; auto).
  assert (E2 : e_X u2 = Y') by (destruct u2 as ((? & ?) & ?); destruct B2; auto).
  assert (RW : forall x y, length x = n -> faithful_start q x -> o_rowV o x = Ok y -> y = x).
  { intros x y Lx Fx E. unfold o in E. cbn [mcmc_ops o_rowV] in E. rewrite NP in E. cbn [num_of] in E. unfold store_row in E. rewrite Lx, Nat.eqb_refl in E.
    injection E as <-. rewrite <- (st_real (n_complex q) x Fx) at 2. unfold st. destruct (n_complex q); [apply map_id|reflexivity]. }
  rewrite E1 in O1. rewrite E2 in O2. rewrite (RW X' r1 LX' FX' O1), (RW Y' r2 LY' FY' O2).
  unfold steps_to. rewrite Nat.add_1_r in D. exact D.
Qed.
Print Assumptions C61_runs.

(** ** the spread over the noise *)

(** as tape_runs of C60, for SKROCK *)
Definition sk_tape_runs (R0 : rng (list (list R))) (f : forward_op) (pr : prior_obj) (q : numparams) (prm : params)
    (fuel : nat) (sh : list nat) (X : vec) (s0 : inst vec vec C R) (n N K j : nat) : Prop :=
  good_rng R0 /\ reads_tape R0 n /\ sized s0 N /\ p_nsamples prm = Z.of_nat N /\ i_chain s0 <> None /\ (j < N)%nat /\
  (per_step (n_complex q) * steps_to prm j <= K)%nat /\
  forall l, length l = K -> (forall w, In w l -> length w = n) ->
    exists w', skrock_run (mcmc_ops R0 f pr q) prm fuel (StartArray sh X) (mkWorld s0 l) = (w', Ret tt).

Section Tape.
Variables (f : forward_op) (pr : prior_obj) (q : numparams) (n m s : nat) (lo hi delta w1 : R) (r : nat -> R).
Hypothesis CP : convex_problem f pr n m lo hi.
Hypothesis Hl : 0 < n_lmda q.
Hypothesis SS : small_step q hi delta.
Hypothesis Es : n_s q = Z.of_nat s.
Hypothesis Hs : (2 <= s)%nat.
Hypothesis KR : forall j X Z, (j <= s)%nat -> length X = n -> length Z = n ->
      K_recursion f pr q delta X j Z = Ok (stage (drift f pr q) s (omega_0 q) w1 delta r j X Z).
Local Notation b := (n_complex q).

Definition sk_next (X : vec) (l : list (list R)) : vec := stage (drift f pr q) s (omega_0 q) w1 delta r s X (noise_of b l).
Fixpoint sk_it (k : nat) (X : vec) (l : list (list R)) : vec :=
  match k with O => X | S k => sk_it k (sk_next X l) (skipn (per_step b) l) end.

Lemma sk_next_length : forall X l, length X = n -> tape_of n (per_step b) l -> length (sk_next X l) = n.
Proof.
  intros X l LX T. apply (stage_length _ n); auto; [eapply drift_len; eauto|].
  apply (tape_noise_length b n l T).
Qed.

Lemma sk_path_tape : forall R0, good_rng R0 -> reads_tape R0 n ->
  forall k tr X d l X' d' l', length X = n -> (forall w, In w l -> length w = n) -> (per_step b * S k <= length l)%nat ->
  path (skrock_trans (mcmc_ops R0 f pr q) delta) (X, d, l) tr -> nth_error tr k = Some (X', d', l') -> X' = sk_it (S k) X l.
Proof.
  intros R0 GR RT. 
  assert (ONE : forall X d l x1 d1 l', length X = n -> (forall w, In w l -> length w = n) -> (per_step b <= length l)%nat ->
    skrock_trans (mcmc_ops R0 f pr q) delta (X, d, l) (x1, d1, l') -> x1 = sk_next X l /\ l' = skipn (per_step b) l /\ length x1 = n).
  { intros X d l x1 d1 l' LX T HL (S1 & _). cbn [mcmc_ops o_skstep] in S1. rewrite C16_step, LX in S1.
    assert (E : l = firstn (per_step b) l ++ skipn (per_step b) l) by (symmetry; apply firstn_skipn).
    assert (TT : tape_of n (per_step b) (firstn (per_step b) l)) by
       (split; [rewrite firstn_length; lia|intros w Hw; apply T; rewrite E; apply in_or_app; auto]).
    assert (EN : noise_of b (firstn (per_step b) l) = noise_of b l) by
       (rewrite E at 2; symmetry; apply noise_of_app; rewrite firstn_length; lia).
    destruct (noise_tape R0 b n _ (skipn (per_step b) l) RT TT) as (N1 & N2). rewrite <- E in N1. rewrite N1, Es, Nat2Z.id, KR in S1 by auto.
    injection S1 as <- <-. unfold sk_next. rewrite <- EN. split; [reflexivity|]. split; [reflexivity|].
    apply (stage_length _ n); auto. eapply drift_len; eauto. }
  induction k as [|k IH]; intros tr X d l X' d' l' LX T HL P N; (destruct tr as [|((x1 & d1) & l1') tr]; [discriminate|]);
    destruct (path_inv _ _ _ _ P) as (TR & Q); destruct (ONE X d l x1 d1 l1' LX T ltac:(lia) TR) as (-> & -> & L1); cbn [nth_error] in N.
  - injection N as <- <- <-. reflexivity.
  - cbn [sk_it]. eapply (IH tr); eauto.
    + intros w Hw. apply T. rewrite <- (firstn_skipn (per_step b) l). apply in_or_app; auto.
    + rewrite skipn_length. lia.
Qed.

Lemma sk_run_row : forall R0 prm N fuel sh X s0 l j w',
  let o := mcmc_ops R0 f pr q in
  good_rng R0 -> reads_tape R0 n -> faithful f pr q n -> faithful_start q X -> i_delta s0 = delta ->
  sized s0 N -> p_nsamples prm = Z.of_nat N -> i_chain s0 <> None -> (j < N)%nat ->
  (forall w, In w l -> length w = n) -> (per_step b * steps_to prm j <= length l)%nat ->
  skrock_run o prm fuel (StartArray sh X) (mkWorld s0 l) = (w', Ret tt) ->
  length X = n /\ row_of (skrock_run o prm fuel (StartArray sh X)) s0 j [] l = sk_it (steps_to prm j) X l.
Proof.
  intros R0 prm N fuel sh X s0 l j w' o GR RT FA FX ED SZ EN NC Hj T HL M.
  destruct (C01_skrock_schedule _ _ _ _ _ _ o prm fuel _ (mkWorld s0 l) w' N SZ EN M) as (s1 & tr & es & S1 & P1 & _ & _ & L1 & _ & R1 & V1).
  cbn [w_inst w_rng] in *. assert (NP : fo_nparams f = Some n) by apply CP. rewrite ED in P1.
  assert (ST : exists d, s1 = (X, d, l) /\ length X = n /\ fo_forward f X = Ok d).
  { destruct s1 as ((x0 & d) & g'). destruct S1 as (I & F). unfold o in I, F. cbn [mcmc_ops o_init o_forward choose_start] in I, F. rewrite NP in I.
    destruct (negb (Nat.eqb (length sh) 1)); [discriminate|]. destruct (Nat.eqb_spec (length X) n); [|discriminate].
    injection I as <- <-. eauto. }
  destruct ST as (d & -> & LX & Ed). split; [exact LX|].
  destruct (nth_error es j) as [e|] eqn:Ee; [|apply nth_error_None in Ee; lia].
  destruct (V1 j e Ee) as (((X' & d') & l') & A & B).
  assert (EX := sk_path_tape R0 GR RT _ tr X d l X' d' l' LX T HL P1 A). fold (steps_to prm j) in EX.
  destruct (path_faithful R0 f pr q n m s lo hi delta GR CP Hl SS Es Hs FA tr X d _ P1 LX FX _ _ _ _ A) as (LX' & FX').
  assert (E1 : e_X e = X') by (destruct e as ((? & ?) & ?); destruct B; auto).
  destruct R1 as (_ & _ & _ & _ & R1). unfold row_of, rec_arr in *. rewrite M. cbn [fst].
  destruct (i_chain s0) as [a0|]; [|congruence]. destruct (i_chain (w_inst w')) as [c|]; [|destruct R1].
  destruct R1 as (rows & F2 & _ & ->).
  assert (LR := Forall2_length _ _ _ F2). rewrite map_length in LR. rewrite app_nth1 by lia.
  assert (RW : o_rowV o (e_X e) = Ok (nth j rows [])).
  { clear - F2 Ee. revert rows j F2 Ee. induction es as [|e0 es IH]; intros rows j F2 E; inversion F2; subst; [destruct j; discriminate|].
    destruct j as [|j]; cbn in *; [injection E as ->; auto|]. eapply IH; eauto. }
  rewrite E1 in RW. unfold o in RW. cbn [mcmc_ops o_rowV] in RW. rewrite NP in RW. cbn [num_of] in RW.
  unfold store_row in RW. rewrite LX', Nat.eqb_refl in RW. injection RW as RW. rewrite <- RW, <- EX.
  rewrite <- (st_real b X' FX') at 2. unfold st. destruct b; [apply map_id|reflexivity].
Qed.
End Tape.

Lemma far_apart : forall a b y, length a = length y -> length b = length y -> nrm2 (vsub a b) <= 2 * nrm2 (vsub a y) + 2 * nrm2 (vsub b y).
Proof.
  unfold vsub. induction a as [|x a IH]; intros [|z b] [|t y] L1 L2; cbn [length map2] in *; try discriminate; [unfold nrm2; cbn; lra|].
  specialize (IH b y ltac:(lia) ltac:(lia)). rewrite !nrm2_cons.
  set (p := nrm2 (map2 Cminus a b)) in *. set (p1 := nrm2 (map2 Cminus a y)) in *. set (p2 := nrm2 (map2 Cminus b y)) in *.
  destruct x as (x1 & x2), z as (z1 & z2), t as (t1 & t2). unfold Cminus, Cplus, Copp; cbn [fst snd].
  assert (A : 0 <= (x1 + z1 - 2 * t1) ^ 2) by apply pow2_ge_0. assert (B : 0 <= (x2 + z2 - 2 * t2) ^ 2) by apply pow2_ge_0. nra.
Qed.

Theorem C61_spread : forall R0 f pr q prm fuel sh X s0 n m N K j lo hi s S v y,
  convex_problem f pr n m lo hi -> 0 < n_lmda q -> small_step q hi (i_delta s0) -> n_s q = Z.of_nat s -> (2 <= s)%nat ->
  faithful f pr q n -> faithful_start q X -> white S n v -> sk_tape_runs R0 f pr q prm fuel sh X s0 n N K j -> length y = n ->
  3 / 4 * i_delta s0 * (v * INR n * INR (per_step (n_complex q))) * (INR s ^ 2) ^ (steps_to prm j - 1) <=
  mean_sq S K (skrock_run (mcmc_ops R0 f pr q) prm fuel (StartArray sh X)) s0 j y.
Proof.
  intros R0 f pr q prm fuel sh X s0 n m N K j lo hi s S v y CP Hl SS Es Hs FA FX W (GR & RT & SZ & EN & NC & Hj & HK & ER) Ly.
  set (delta := i_delta s0) in *. set (b := n_complex q) in *. set (p := per_step b) in *.
  destruct (sk_setup f pr q n m lo hi s delta CP Hl SS Es Hs) as (w1 & r & W1 & WL & RJ & R2 & (O1 & O2) & (K0 & K1) & K2 & KR).
  assert (LG : forall x, length x = n -> length (drift f pr q x) = n) by (eapply drift_len; eauto).
  assert (LIP : forall x z, length x = n -> length z = n -> nm (vsub (drift f pr q x) (drift f pr q z)) <= (/ n_lmda q + hi) * nm (vsub x z)) by (intros; eapply drift_lipschitz; eauto).
  assert (Hi : 0 < hi) by apply CP. assert (I0 := Rinv_0_lt_compat _ Hl). assert (HL : 0 <= / n_lmda q + hi) by lra.
  assert (Hd : 0 <= delta) by apply SS. assert (TS : forall pw, In pw S -> 0 <= fst pw /\ length (snd pw) = n) by apply W.
  assert (M1 : mean S (fun _ => 1) = 1) by apply W.
  assert (FN : forall l : list (list R), (p <= length l)%nat -> length (firstn p l) = p) by (intros; rewrite firstn_length; lia).
  set (nx := sk_next f pr q s delta w1 r). set (itr := sk_it f pr q s delta w1 r).
  assert (NL : forall x l, length x = n -> tape_of n p l -> length (nx x l) = n) by (intros; eapply sk_next_length; eauto).
  assert (IL : forall k x l, length x = n -> (forall w, In w l -> length w = n) -> (p * k <= length l)%nat -> length (itr k x l) = n).
  { induction k as [|k IH]; intros x l Lx T HL'; [exact Lx|]. rewrite Nat.mul_succ_r in HL'. cbn [itr sk_it]. change (length (itr k (nx x l) (skipn p l)) = n). apply IH.
    - replace (nx x l) with (nx x (firstn p l)).
      + apply NL; auto. split; [rewrite firstn_length; lia|]. intros w Hw. apply T. rewrite <- (firstn_skipn p l). apply in_or_app; auto.
      + unfold nx, sk_next. do 1 f_equal. rewrite <- (firstn_skipn p l) at 2. symmetry. apply noise_of_app. apply FN; lia.
    - intros w Hw. apply T. rewrite <- (firstn_skipn p l). apply in_or_app; auto.
    - rewrite skipn_length. lia. }
  (* the start has the right length *)
  assert (LX : length X = n).
  { set (l := repeat (repeat 0 n) K). assert (Ll : length l = K) by apply repeat_length.
    assert (T : forall w, In w l -> length w = n) by (intros w Hw; apply repeat_spec in Hw; rewrite Hw; apply repeat_length).
    destruct (ER l Ll T) as (w' & E).
    destruct (sk_run_row f pr q n m s lo hi delta w1 r CP Hl SS Es Hs KR R0 prm N fuel sh X s0 l j w' GR RT FA FX eq_refl SZ EN NC Hj T ltac:(rewrite Ll; exact HK) E) as (E1 & _).
    exact E1. }
  assert (EXP : mean_sq S K (skrock_run (mcmc_ops R0 f pr q) prm fuel (StartArray sh X)) s0 j y =
    expect S K (fun l => nrm2 (vsub (itr (steps_to prm j) X l) y))).
  { unfold mean_sq. apply (expect_ext S n); [intros; apply TS; auto|]. intros l (Ll & T). destruct (ER l Ll T) as (w' & E).
    destruct (sk_run_row f pr q n m s lo hi delta w1 r CP Hl SS Es Hs KR R0 prm N fuel sh X s0 l j w' GR RT FA FX eq_refl SZ EN NC Hj T ltac:(rewrite Ll; exact HK) E) as (_ & E1).
    rewrite E1. reflexivity. }
  rewrite EXP. clear EXP ER. unfold steps_to in *. rewrite Nat.mul_succ_r in HK. set (k := Z.to_nat (save_iter (p_nburn prm) (p_ngap prm) j)) in *.
  replace (Datatypes.S k - 1)%nat with k by lia. set (m2 := v * INR n * INR p).
  replace K with (p + (K - p))%nat by lia. rewrite expect_app.
  set (h := fun l1 => expect S (K - p) (fun l => nrm2 (vsub (itr k (nx X l1) l) y))).
  rewrite (expect_ext S n p _ h); [|intros; apply TS; auto|].
  2:{ intros l1 (L1 & T1). unfold h. apply (expect_ext S n); [intros; apply TS; auto|]. intros l (Ll & T). do 2 f_equal.
      unfold itr. cbn [sk_it]. fold b p. rewrite (skipn_exact l1 l p L1). f_equal. unfold nx, sk_next. f_equal. apply noise_of_app. exact L1. }
  (* two executions that differ in the first noise *)
  assert (COUP : forall k x z l, length x = n -> length z = n -> (forall w, In w l -> length w = n) -> (p * k <= length l)%nat ->
    (INR s ^ 2) ^ k * nrm2 (vsub x z) <= nrm2 (vsub (itr k x l) (itr k z l))).
  { induction k0 as [|k0 IH]; intros x z l Lx Lz T HL'; [rewrite pow_O, Rmult_1_l; apply Rle_refl|]. rewrite Nat.mul_succ_r in HL'.
    assert (TT : tape_of n p (firstn p l)).
    { split; [rewrite firstn_length; lia|]. intros w Hw. apply T. rewrite <- (firstn_skipn p l). apply in_or_app; auto. }
    assert (EQ : forall x, nx x l = nx x (firstn p l)).
    { intros x0. unfold nx, sk_next. f_equal. rewrite <- (firstn_skipn p l) at 1. apply noise_of_app. apply FN; lia. }
    change (itr (Datatypes.S k0) x l) with (itr k0 (nx x l) (skipn p l)). change (itr (Datatypes.S k0) z l) with (itr k0 (nx z l) (skipn p l)). rewrite !EQ.
    eapply Rle_trans; [|apply IH; auto].
    - cbn [pow]. rewrite (Rmult_comm (INR s * (INR s * 1))), Rmult_assoc. apply Rmult_le_compat_l; [apply pow_le; assert (0 <= INR s) by apply pos_INR; nra|].
      change (INR s ^ 2 * nrm2 (vsub x z) <= nrm2 (vsub (nx x (firstn p l)) (nx z (firstn p l)))).
      apply nm_to_nrm2; [apply pos_INR|]. apply (sample_grows (drift f pr q) n s (omega_0 q) w1 delta r LG (/ n_lmda q + hi)); auto; try lra.
      apply (tape_noise_length b n _ TT).
    - intros w Hw. apply T. rewrite <- (firstn_skipn p l). apply in_or_app; auto.
    - rewrite skipn_length. lia. }
  set (t := INR s * (INR s * w1 / omega_0 q * (1 - w1 * delta * (/ n_lmda q + hi) / 2))).
  set (c0 := (INR s ^ 2) ^ k * (t * sqrt (2 * delta)) ^ 2).
  assert (T9 : 9 / 10 <= t).
  { unfold t. set (kp := w1 * delta * (/ n_lmda q + hi)) in *. unfold Rdiv.
    replace (INR s * (INR s * w1 * / omega_0 q * (1 - kp * / 2))) with (w1 * (INR s * INR s) * / omega_0 q * (1 - kp * / 2)) by ring.
    assert (IO : / (10125 / 10000) <= / omega_0 q) by (apply Rinv_le_contravar; lra).
    assert (A : 1000 / 1055 * / (10125 / 10000) <= w1 * (INR s * INR s) * / omega_0 q) by (apply Rmult_le_compat; lra).
    assert (B : 1000 / 1055 * / (10125 / 10000) * (99 / 100) <= w1 * (INR s * INR s) * / omega_0 q * (1 - kp * / 2)) by (apply Rmult_le_compat; lra).
    lra. }
  assert (C0 : 3 / 2 * delta * (INR s ^ 2) ^ k <= c0).
  { unfold c0. replace ((t * sqrt (2 * delta)) ^ 2) with (t ^ 2 * (sqrt (2 * delta) ^ 2)) by ring. rewrite pow2_sqrt by lra.
    rewrite Rmult_comm. apply Rmult_le_compat_l; [apply pow_le, pow2_ge_0|].
    assert (81 / 100 <= t ^ 2) by nra. nra. }
  assert (PAIR : forall l1 l2, tape_of n p l1 -> tape_of n p l2 -> c0 * nrm2 (vsub (noise_of b l1) (noise_of b l2)) <= 2 * h l1 + 2 * h l2).
  { intros l1 l2 T1 T2. unfold h. rewrite <- !expect_scal, <- expect_plus, <- (expect_const S (K - p) (c0 * _) M1).
    apply (expect_le S n); [auto|]. intros l (Ll & T).
    assert (HLl : (p * k <= length l)%nat) by lia.
    eapply Rle_trans; [|apply far_apart; rewrite Ly; apply IL; auto].
    eapply Rle_trans; [|apply COUP; auto]. unfold c0. rewrite Rmult_assoc. apply Rmult_le_compat_l; [apply pow_le, pow2_ge_0|].
    apply nm_to_nrm2; [apply Rmult_le_pos; [lra|apply sqrt_pos]|].
    apply (noise_grows (drift f pr q) n s (omega_0 q) w1 delta r LG (/ n_lmda q + hi)); auto; try lra; try lia.
    - apply (tape_noise_length b n _ T1).
    - apply (tape_noise_length b n _ T2). }
  (* average over both *)
  assert (AV : expect S p (fun l1 => expect S p (fun l2 => c0 * nrm2 (vsub (noise_of b l1) (noise_of b l2)))) = c0 * (2 * m2)).
  { assert (ZN : nrm2 (vzero n) = 0).
    { unfold vzero. clear. induction n as [|i IH]; [reflexivity|]. cbn [repeat]. rewrite nrm2_cons, IH. cbn. ring. }
    transitivity (expect S p (fun l1 => c0 * (nrm2 (vadd (vzero n) (vscal (RtoC 1) (noise_of b l1))) + m2))).
    - apply (expect_ext S n); [intros; apply TS; auto|]. intros l1 T1. rewrite expect_scal. f_equal.
      assert (LN := tape_noise_length b n l1 T1).
      assert (Q := noise_second S n v b (-1) (noise_of b l1) W LN).
      transitivity (expect S p (fun l2 => nrm2 (vadd (noise_of b l1) (vscal (RtoC (-1)) (noise_of b l2))))).
      + apply (expect_ext S n); [intros; apply TS; auto|]. intros l2 T2. f_equal. assert (LN2 := tape_noise_length b n l2 T2).
        revert LN LN2. generalize (noise_of b l1) (noise_of b l2). clear. unfold vsub, vadd, vscal.
        induction n as [|i IH]; intros [|x xs] [|z zs] A B; cbn in *; try lia; [reflexivity|]. f_equal; [|apply IH; lia]. apply C_ext; cbn; ring.
      + fold p in Q. rewrite Q. fold m2. f_equal; [|ring]. f_equal. revert LN. generalize (noise_of b l1). clear. unfold vadd, vscal, vzero.
        induction n as [|i IH]; intros [|x xs] A; cbn in *; try lia; [reflexivity|]. f_equal; [|apply IH; lia]. apply C_ext; cbn; ring.
    - rewrite expect_scal, expect_plus, expect_const by auto. f_equal.
      assert (Q := noise_second S n v b 1 (vzero n) W ltac:(apply repeat_length)). fold p in Q. rewrite Q, ZN. fold m2. ring. }
  assert (BD : c0 * (2 * m2) <= 4 * expect S p h).
  { rewrite <- AV. apply Rle_trans with (expect S p (fun l1 => expect S p (fun l2 => 2 * h l1 + 2 * h l2))).
    - apply (expect_le S n); [auto|]. intros l1 T1. apply (expect_le S n); [auto|]. intros l2 T2. apply PAIR; auto.
    - apply Req_le. transitivity (expect S p (fun l1 => 2 * h l1 + 2 * expect S p h)).
      + apply (expect_ext S n); [intros; apply TS; auto|]. intros l1 _. rewrite expect_plus, expect_const, expect_scal by auto. reflexivity.
      + rewrite expect_plus, expect_scal, expect_const by auto. ring. }
  assert (M20 : 0 <= m2).
  { unfold m2. apply Rmult_le_pos; [|apply pos_INR]. destruct W as (_ & _ & _ & W2). rewrite <- W2.
    rewrite <- (Rmult_0_l (mean S (fun _ => 0))), <- mean_scal. apply mean_le; [intros; apply TS; auto|]. intros pw _. rewrite Rmult_0_l.
    apply rsum_nonneg. intros a Ha. apply in_map_iff in Ha. destruct Ha as (x & <- & _). apply pow2_ge_0. }
  assert (c0 * m2 >= 3 / 2 * delta * (INR s ^ 2) ^ k * m2) by (apply Rle_ge, Rmult_le_compat_r; auto). lra.
Qed.
Print Assumptions C61_spread.

(** ** two stages: no step size brings the chains together *)

(** without a proximal part the drift is affine with a symmetric slope *)
Lemma drift_symmetric : forall f pr q n m lo hi a b a' b', convex_problem f pr n m lo hi ->
  (forall Z, length Z = n -> pr_proxf pr Z = Ok Z) -> length a = n -> length b = n -> length a' = n -> length b' = n ->
  Re (cdot (vsub (drift f pr q a) (drift f pr q b)) (vsub a' b')) = Re (cdot (vsub a b) (vsub (drift f pr q a') (drift f pr q b'))).
Proof.
  intros f pr q n m lo hi a b a' b' CP NP La Lb La' Lb'.
  assert (D : forall x, length x = n -> exists d gr, fo_forward f x = Ok d /\ fo_gradg f d = Ok gr /\ length gr = n /\ drift f pr q x = vscal (RtoC (-1)) gr).
  { intros x Lx. destruct (problem_parts f pr q n m lo hi x CP Lx) as (d & gr & p & A1 & A2 & A3 & A4 & A5 & _ & _ & A8).
    rewrite (NP x Lx) in A3. injection A3 as <-. exists d, gr. split; [auto|]. split; [auto|]. split; [auto|]. rewrite A8. unfold langevin_drift.
    revert Lx A4. clear. generalize (/ n_lmda q). intros t. revert x gr. unfold vsub, vscal.
    induction n as [|k IH]; intros [|x xs] [|g gr] L1 L2; cbn in *; try lia; [reflexivity|]. f_equal; [|apply IH; lia]. apply C_ext; cbn; ring. }
  destruct (D a La) as (da & ga & A1 & A2 & A3 & A4). destruct (D b Lb) as (db & gb & B1 & B2 & B3 & B4).
  destruct (D a' La') as (da' & ga' & A1' & A2' & A3' & A4'). destruct (D b' Lb') as (db' & gb' & B1' & B2' & B3' & B4').
  destruct CP as (_ & LM & HW & LD & _).
  destruct (gradg_difference f n m a b da db ga gb LM HW LD La Lb A1 B1 A2 B2) as (_ & _ & F1 & M1 & Q1).
  destruct (gradg_difference f n m a' b' da' db' ga' gb' LM HW LD La' Lb' A1' B1' A2' B2') as (_ & _ & F2 & M2 & Q2).
  specialize (Q1 (vsub a' b') _ ltac:(rewrite vsub_length; congruence) F2). specialize (Q2 (vsub a b) _ ltac:(rewrite vsub_length; congruence) F1).
  assert (V : forall g h : vec, vsub (vscal (RtoC (-1)) g) (vscal (RtoC (-1)) h) = vscal (RtoC (-1)) (vsub g h)).
  { clear. unfold vsub, vscal. induction g as [|x g IH]; intros [|y h]; cbn; try reflexivity. f_equal; [ring|apply IH]. }
  rewrite A4, B4, A4', B4', !V, Re_cdot_vscal_l, Re_cdot_vscal_r. f_equal. rewrite Q1, (Re_cdot_sym (vsub a b)), Q2.
  rewrite Re_cdot_sym. rewrite (hermitian_sym (fo_invcov f) m) by auto. reflexivity.
Qed.

Theorem C61_two_stages : forall G (R0 : rng G) f pr q n m lo hi delta X Y g X' Y' g1 g2,
  good_rng R0 -> convex_problem f pr n m lo hi -> (forall Z, length Z = n -> pr_proxf pr Z = Ok Z) -> n_s q = 2%Z ->
  length X = n -> length Y = n ->
  skrock_step R0 f pr q delta X g = (Ok X', g1) -> skrock_step R0 f pr q delta Y g = (Ok Y', g2) ->
  nrm2 (vsub X Y) <= nrm2 (vsub X' Y').
Proof.
  intros G R0 f pr q n m lo hi delta X Y g X' Y' g1 g2 GR CP NP Es LX LY EX EY.
  destruct (sk_coefs q 2 Es ltac:(lia)) as (w1 & r & _ & W1 & _ & C1 & CJ & R2). assert (WO := omega_0_ge q 2 Es ltac:(lia)).
  assert (KR := K_stage f pr q n 2 m lo hi delta w1 r CP C1 (fun j H => proj1 (CJ j H))).
  rewrite C16_step in EX, EY. rewrite LX in EX. rewrite LY in EY.
  assert (LW : length (fst (noise R0 (n_complex q) n g)) = n).
  { unfold noise. destruct (GR n g) as (L1 & _). destruct (GR n (snd (g_randn R0 n g))) as (L2 & _).
    destruct (n_complex q); cbn; [rewrite map2_length; congruence|rewrite map_length; auto]. }
  destruct (noise R0 (n_complex q) n g) as (Z & g'). cbn in LW. rewrite Es in EX, EY. change (Z.to_nat 2) with 2%nat in EX, EY.
  rewrite KR in EX, EY by auto. injection EX as <- <-. injection EY as <- <-.
  assert (LG : forall x, length x = n -> length (drift f pr q x) = n).
  { intros x Lx. destruct (problem_parts f pr q n m lo hi x CP Lx) as (_ & _ & _ & _ & _ & _ & _ & _ & _ & B & _). auto. }
  assert (SL := stage_length (drift f pr q) n 2 (omega_0 q) w1 delta r LG).
  cbn [stage] in *.
  destruct (first_difference (drift f pr q) n 2 (omega_0 q) w1 delta LG X Y Z Z LX LY LW LW) as (E1 & E2). cbv zeta in E1, E2.
  set (A := first (drift f pr q) 2 (omega_0 q) w1 delta X Z) in *. set (A' := first (drift f pr q) 2 (omega_0 q) w1 delta Y Z) in *.
  assert (LA : length A = n) by (apply (SL 1%nat X Z); auto). assert (LA' : length A' = n) by (apply (SL 1%nat Y Z); auto).
  rewrite (later_difference (drift f pr q) n) by auto.
  set (c := nu1 2 w1 * sqrt (2 * delta)) in *.
  set (u := vadd X (vscal (RtoC c) Z)) in *. set (u' := vadd Y (vscal (RtoC c) Z)) in *.
  assert (Lu : length u = n) by (unfold u; rewrite vadd_length; rewrite ?vscal_length; congruence).
  assert (Lu' : length u' = n) by (unfold u'; rewrite vadd_length; rewrite ?vscal_length; congruence).
  assert (AZ : forall a (t : R), length a = n -> vadd a (vscal (RtoC t) (vsub Z Z)) = a).
  { clear - LW. intros a t. revert a Z LW. unfold vadd, vscal, vsub. induction n as [|k IH]; intros [|x a] [|z Z] L1 L2; cbn in *; try lia; [reflexivity|].
    f_equal; [ring|apply IH; lia]. }
  assert (K1 : forall a b : vec, length a = n -> length b = n -> length (vsub a b) = n) by (intros; rewrite vsub_length; congruence).
  assert (SY := drift_symmetric f pr q n m lo hi A A' u u' CP NP LA LA' Lu Lu').
  assert (L1 := LG _ Lu). assert (L2 := LG _ Lu'). assert (L3 := LG _ LA). assert (L4 := LG _ LA').
  rewrite AZ in E1 by (rewrite vadd_length; rewrite ?vscal_length, ?K1; auto). rewrite AZ in E2 by (apply K1; auto).
  set (d := vsub X Y) in *. set (e1 := vsub (drift f pr q u) (drift f pr q u')) in *. set (e2 := vsub (drift f pr q A) (drift f pr q A')) in *.
  rewrite E2 in SY. assert (Ld : length d = n) by (apply K1; auto). assert (Le1 : length e1 = n) by (apply K1; auto). assert (Le2 : length e2 = n) by (apply K1; auto).
  assert (LdA : length (vsub A A') = n) by (apply K1; auto).
  set (a := vsub A A') in *. set (w0 := omega_0 q) in *. set (rr := r 2%nat) in *. clearbody a d e1 e2. clear - SY E1 Ld Le1 Le2 LdA WO W1 R2.
  (* the inner products *)
  assert (N1 : Re (cdot a d) = nrm2 a - w1 / w0 * delta * Re (cdot a e1)).
  { assert (Q : Re (cdot a a) = Re (cdot a d) + w1 / w0 * delta * Re (cdot a e1)).
    { rewrite E1 at 2. rewrite (cdot_vadd_r a d) by (rewrite ?vscal_length; congruence). rewrite Re_plus, Re_cdot_vscal_r. reflexivity. }
    rewrite cdot_self, Re_RtoC in Q. lra. }
  set (P := vadd (vscal (RtoC (2 * w1 * rr * delta)) e2) (vscal (RtoC (2 * w0 * rr)) a)).
  assert (LP : length P = n) by (unfold P; rewrite vadd_length; rewrite ?vscal_length; congruence).
  rewrite nrm2_vsub_expand by congruence.
  assert (PD : Re (cdot P d) = 2 * rr * (w0 * nrm2 a)).
  { unfold P. rewrite (cdot_vadd_l (vscal (RtoC (2 * w1 * rr * delta)) e2)) by (rewrite ?vscal_length; congruence).
    rewrite Re_plus, !Re_cdot_vscal_l, SY, N1. field. lra. }
  rewrite (Re_cdot_sym d P), PD. assert (NP := nrm2_nonneg P). assert (NA := nrm2_nonneg a).
  assert (0 <= w0 * nrm2 a) by (apply Rmult_le_pos; lra). nra.
Qed.
Print Assumptions C61_two_stages.

(** ** the hypotheses hold *)

Theorem C61_runs_exist : forall f pr q prm n m lo hi delta fuel X N K j,
  convex_problem f pr n m lo hi -> 0 < n_lmda q -> (forall x, length x = n -> exists r, pr_prior pr x = Ok r) -> length X = n ->
  p_nsamples prm = Z.of_nat N -> p_track prm = ["logposterior"; "L2"; "prior"; "chain"]%string ->
  (total_iters (p_nburn prm) (p_ngap prm) N <= fuel)%nat -> (j < N)%nat ->
  (per_step (n_complex q) * steps_to prm j <= K)%nat ->
  exists s0, new_sampler (mcmc_ops tape_rng f pr q) prm delta = Ok s0 /\ i_delta s0 = delta /\
    sk_tape_runs tape_rng f pr q prm fuel [n] X s0 n N K j.
Proof.
  intros f pr q prm n m lo hi delta fuel X N K j CP Hl PT LX EN ET HF Hj HK.
  assert (GR : good_rng tape_rng).
  { intros k g. cbn. rewrite repeat_length. split; [|reflexivity]. rewrite firstn_length, app_length, repeat_length. lia. }
  assert (RT : reads_tape tape_rng n).
  { intros w g Lw. cbn. rewrite firstn_app, Lw, Nat.sub_diag, <- Lw, firstn_all. cbn. rewrite app_nil_r. reflexivity. }
  assert (EZ : Z.to_nat (p_nsamples prm) = N) by lia.
  destruct (C44_new_sampler_exists _ _ _ _ _ _ (mcmc_ops tape_rng f pr q) prm delta ltac:(lia)) as (s0 & E0).
  destruct (C44_new_sampler _ _ _ _ _ _ _ prm delta s0 E0) as (K1 & K2 & K3 & K4 & K5 & K6 & K7 & SZ). rewrite EZ in *. rewrite ET in K1, K2, K3, K5.
  cbn in K1, K2, K3, K5. exists s0. split; [exact E0|]. split; [auto|].
  split; [exact GR|]. split; [exact RT|]. split; [exact SZ|]. split; [exact EN|].
  split; [rewrite K5; discriminate|]. split; [exact Hj|]. split; [exact HK|]. intros l _ _.
  assert (NM : ~ line_array_missing (w_inst (mkWorld s0 l))).
  { unfold line_array_missing. cbn [w_inst]. rewrite K1, K2, K3. intros [H|[H|H]]; discriminate. }
  destruct (C01_numerical_runs_end _ tape_rng f pr q prm fuel (StartArray [n] X) (mkWorld s0 l) n m N GR (convex_shapes f pr n m lo hi CP PT) ltac:(lra)
    (conj eq_refl LX) SZ EN NM) as (_ & (_ & A)).
  exact (A HF).
Qed.
Print Assumptions C61_runs_exist.

Lemma weighted_real : forall w pr q, (forall Z, length Z = 1%nat -> pr_proxf pr Z = Ok Z) -> real_drift (weighted_fwd w) pr q 1.
Proof.
  intros w pr q NP [|a [|]] g L RV E; try discriminate. specialize (RV a (or_introl eq_refl)).
  unfold gradlogpi in E. rewrite (NP [a] eq_refl) in E. cbn in E. injection E as <-. intros z [<-|[]].
  destruct a as (a1 & a2). unfold Im in *. cbn in *. rewrite RV. ring.
Qed.

(** ** stability *)

(** MYULA's chains of a convex problem approach each other for every small step
    (C56).  SKROCK is advertised for stiff problems, and its chains do not: with
    two stages no step size at all brings two samples closer together, and every
    small one doubles their distance. *)
Theorem C61_stability_refuted : exists f pr q lo,
  convex_problem f pr 1 1 lo lo /\ 0 < n_lmda q /\ n_s q = 2%Z /\ 0 < lo /\
  (forall G (R0 : rng G) delta X Y g X' Y' g1 g2, good_rng R0 -> length X = 1%nat -> length Y = 1%nat ->
     skrock_step R0 f pr q delta X g = (Ok X', g1) -> skrock_step R0 f pr q delta Y g = (Ok Y', g2) ->
     nrm2 (vsub X Y) <= nrm2 (vsub X' Y')) /\
  (forall G (R0 : rng G) delta X Y g X' Y' g1 g2, good_rng R0 -> length X = 1%nat -> length Y = 1%nat ->
     0 <= delta -> 44 * delta <= 1 ->
     skrock_step R0 f pr q delta X g = (Ok X', g1) -> skrock_step R0 f pr q delta Y g = (Ok Y', g2) ->
     4 * nrm2 (vsub X Y) <= nrm2 (vsub X' Y')).
Proof.
  set (f := weighted_fwd 1). set (pr := mkPrior (fun _ => Ok 0) (fun X => soft X (TScal 0))). set (q := mkNum 1 1 2 false). exists f, pr, q, 1.
  assert (CP := weighted_problem 1 0 (fun _ => Ok 0) ltac:(lra) ltac:(lra)).
  split; [exact CP|]. split; [cbn; lra|]. split; [reflexivity|]. split; [lra|]. split.
  - intros G R0 delta X Y g X' Y' g1 g2 GR LX LY EX EY.
    refine (C61_two_stages G R0 f pr q 1 1 1 1 delta X Y g X' Y' g1 g2 GR CP _ eq_refl LX LY EX EY). intros Z _. apply soft_zero.
  - intros G R0 delta X Y g X' Y' g1 g2 GR LX LY H0 H1 EX EY.
    destruct (C61_step G R0 f pr q 1 1 1 1 2 delta X Y g X' Y' g1 g2 GR CP ltac:(cbn; lra) ltac:(split; [lra|cbn [n_lmda q]; lra]) eq_refl ltac:(lia) LX LY EX EY) as (_ & _ & _ & E).
    cbn [INR] in E. lra.
Qed.
Print Assumptions C61_stability_refuted.

(** ten steps from the minimiser X = 1 with delta = 1/44, two stages: MYULA's
    mean square stays below 2 delta / (delta (2 - delta)) (C60), here the tenth
    saved sample is 3/4 * 1/44 * 4^9 > 4000 away on average *)
Example C61_case : let f := weighted_fwd 1 in let pr := mkPrior (fun _ => Ok 0) (fun X => soft X (TScal 0)) in
  let q := mkNum 1 1 2 false in
  let prm := {| p_nsamples := 10; p_nburn := 0; p_ngap := 0; p_verbosity := 0; p_track := ["logposterior"; "L2"; "prior"; "chain"]%string |} in
  exists s0, new_sampler (mcmc_ops tape_rng f pr q) prm (1 / 44) = Ok s0 /\
    4000 <= mean_sq coin 10 (skrock_run (mcmc_ops tape_rng f pr q) prm 10 (StartArray [1%nat] [RtoC 1])) s0 9 [RtoC 1].
Proof.
  intros f pr q prm. assert (CP : convex_problem f pr 1 1 1 1) by (apply weighted_problem; lra).
  destruct (C61_runs_exist f pr q prm 1 1 1 1 (1 / 44) 10 [RtoC 1] 10 10 9 CP ltac:(cbn; lra) ltac:(intros; eexists; reflexivity) eq_refl eq_refl eq_refl
    ltac:(vm_compute; lia) ltac:(lia) ltac:(vm_compute; lia)) as (s0 & E0 & ED & TR). exists s0. split; [exact E0|].
  assert (NP : forall Z, length Z = 1%nat -> pr_proxf pr Z = Ok Z) by (intros Z _; apply soft_zero).
  assert (Q := C61_spread tape_rng f pr q prm 10 [1%nat] [RtoC 1] s0 1 1 10 10 9 1 1 2 coin 1 [RtoC 1] CP ltac:(cbn; lra)
    ltac:(rewrite ED; split; [lra|cbn [n_lmda q]; lra]) eq_refl ltac:(lia) (or_intror (weighted_real 1 pr q NP))
    ltac:(right; intros z [<-|[]]; reflexivity) coin_white TR eq_refl).
  eapply Rle_trans; [|exact Q]. rewrite ED. change (per_step (n_complex q)) with 1%nat. change (steps_to prm 9 - 1)%nat with 9%nat. cbn [INR]. cbn [pow]. lra.
Qed.
