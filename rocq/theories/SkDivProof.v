(** Lemmas for C61: lower bounds for the stages of SKROCK. *)
From Coq Require Import List ZArith Lia Bool Reals Lra Psatz String.
From Coquelicot Require Import Coquelicot.
From Verif Require Import PyBase PyBaseFacts Sampler CVec Utils UtilsSpec UtilsProof
  OpSpec Forward Prior Mcmc McmcSpec FwdProof StepProof SkProof StableProof.
Import ListNotations.
Notation length := List.length.
Open Scope R_scope.

(** ** the Euclidean norm *)

Definition nm (x : vec) : R := sqrt (nrm2 x).
Lemma nm_nonneg : forall x, 0 <= nm x. Proof. intros; apply sqrt_pos. Qed.
Lemma nm_sq : forall x, nm x ^ 2 = nrm2 x. Proof. intros. apply pow2_sqrt, nrm2_nonneg. Qed.

Lemma discriminant : forall A B D, 0 <= A -> 0 <= D -> (forall t, 0 <= t ^ 2 * A - 2 * t * B + D) -> B ^ 2 <= A * D.
Proof.
  intros A B D HA HD H. destruct (Req_dec A 0) as [->|NA].
  - destruct (Req_dec B 0) as [->|NB]; [lra|]. exfalso. specialize (H ((D + 1) / (2 * B))).
    replace (2 * ((D + 1) / (2 * B)) * B) with (D + 1) in H by (field; auto). lra.
  - specialize (H (B / A)). apply (Rmult_le_compat_l A) in H; [|auto].
    replace (A * ((B / A) ^ 2 * A - 2 * (B / A) * B + D)) with (A * D - B ^ 2) in H by (field; auto). lra.
Qed.

Lemma cauchy : forall a b, length a = length b -> Re (cdot a b) <= nm a * nm b.
Proof.
  intros a b L. assert (Q : Re (cdot a b) ^ 2 <= nrm2 a * nrm2 b).
  { apply discriminant; try apply nrm2_nonneg. intros t. assert (P := nrm2_nonneg (vsub (vscal (RtoC t) a) b)).
    rewrite nrm2_vsub_expand in P by (rewrite vscal_length; auto). rewrite nrm2_vscal_R, Re_cdot_vscal_r in P.
    rewrite (Re_cdot_sym b a) in P. lra. }
  rewrite <- !nm_sq in Q. assert (A := nm_nonneg a). assert (B := nm_nonneg b). assert (0 <= nm a * nm b) by (apply Rmult_le_pos; auto).
  destruct (Rle_dec (Re (cdot a b)) (nm a * nm b)); [auto|nra].
Qed.

Lemma nm_vscal : forall t a, nm (vscal (RtoC t) a) = Rabs t * nm a.
Proof.
  intros t a. unfold nm. rewrite nrm2_vscal_R, sqrt_mult by (try apply nrm2_nonneg; apply pow2_ge_0).
  rewrite <- Rsqr_pow2, sqrt_Rsqr_abs. reflexivity.
Qed.
Lemma nm_vadd : forall a b, length a = length b -> nm (vadd a b) <= nm a + nm b.
Proof.
  intros a b L. assert (A := nm_nonneg a). assert (B := nm_nonneg b). assert (C := cauchy a b L).
  apply Rsqr_incr_0_var; [|lra]. rewrite !Rsqr_pow2, nm_sq, nrm2_vadd_expand by auto. rewrite <- !nm_sq. nra.
Qed.
Lemma nm_vopp : forall a b, length a = length b -> nm (vsub a b) = nm (vsub b a).
Proof. intros a b L. unfold nm. rewrite !nrm2_vsub_expand by auto. rewrite (Re_cdot_sym a b). f_equal. ring. Qed.
Lemma vsub_back : forall a b, length a = length b -> vadd (vsub a b) b = a.
Proof.
  unfold vadd, vsub. induction a as [|x a IH]; intros [|y b] L; cbn in *; try lia; [reflexivity|].
  f_equal; [ring|apply IH; lia].
Qed.
Lemma nm_vsub : forall a b, length a = length b -> nm a - nm b <= nm (vsub a b) <= nm a + nm b.
Proof.
  intros a b L. assert (LS : length (vsub a b) = length a) by (apply vsub_length; auto). split.
  - assert (H := nm_vadd (vsub a b) b ltac:(congruence)). rewrite vsub_back in H by auto. lra.
  - assert (E : vsub a b = vadd a (vscal (RtoC (-1)) b)).
    { clear LS. revert b L. unfold vsub, vadd, vscal. induction a as [|x a IH]; intros [|y b] L; cbn in *; try lia; [reflexivity|].
      f_equal; [|apply IH; lia]. apply C_ext; cbn; ring. }
    rewrite E. eapply Rle_trans; [apply nm_vadd; rewrite vscal_length; auto|]. rewrite nm_vscal, Rabs_left by lra. lra.
Qed.
Lemma nm_vadd_lower : forall a b, length a = length b -> nm a - nm b <= nm (vadd a b).
Proof.
  intros a b L. assert (E : a = vsub (vadd a b) b).
  { revert b L. unfold vsub, vadd. induction a as [|x a IH]; intros [|y b] L; cbn in *; try lia; [reflexivity|].
    f_equal; [ring|apply IH; lia]. }
  assert (LA : length (vadd a b) = length b) by (rewrite vadd_length; auto).
  assert (H := proj2 (nm_vsub (vadd a b) b LA)). rewrite <- E in H. lra.
Qed.

Lemma vadd_swap : forall a b, vadd a b = vadd b a.
Proof. unfold vadd. induction a as [|x a IH]; intros [|y b]; cbn; try reflexivity. f_equal; [ring|apply IH]. Qed.

(** ** the stages as a function *)

Section Stages.
Variable G : vec -> vec.
Variables n m : nat.
Variables w0 w1 delta : R.
Variable r : nat -> R.
Hypothesis LG : forall x, length x = n -> length (G x) = n.

Definition nu1 : R := INR m * w1 / 2.
Definition k1 : R := INR m * w1 / w0.
Definition first (X Z : vec) : vec :=
  vadd (vadd X (vscal (RtoC (w1 / w0 * delta)) (G (vadd X (vscal (RtoC (nu1 * sqrt (2 * delta))) Z)))))
       (vscal (RtoC (k1 * sqrt (2 * delta))) Z).
Definition later (j : nat) (A B : vec) : vec :=
  vsub (vshift (RtoC 1) (vadd (vscal (RtoC (2 * w1 * r j * delta)) (G A)) (vscal (RtoC (2 * w0 * r j)) A))) B.
Fixpoint stage (j : nat) (X Z : vec) : vec :=
  match j with
  | O => X
  | S j1 => match j1 with O => first X Z | S j2 => later j (stage j1 X Z) (stage j2 X Z) end
  end.
Lemma stage_SS : forall j X Z, stage (S (S j)) X Z = later (S (S j)) (stage (S j) X Z) (stage j X Z).
Proof. reflexivity. Qed.

Lemma stage_length : forall j X Z, length X = n -> length Z = n -> length (stage j X Z) = n.
Proof.
  intros j X Z LX LZ. assert (H : length (stage j X Z) = n /\ length (stage (S j) X Z) = n); [|tauto].
  induction j as [|j (A & B)].
  - split; [exact LX|]. cbn [stage]. unfold first.
    assert (L1 : length (vadd X (vscal (RtoC (nu1 * sqrt (2 * delta))) Z)) = n) by (rewrite vadd_length; rewrite ?vscal_length; congruence).
    assert (L2 := LG _ L1).
    assert (L3 : length (vadd X (vscal (RtoC (w1 / w0 * delta)) (G (vadd X (vscal (RtoC (nu1 * sqrt (2 * delta))) Z))))) = n)
      by (rewrite vadd_length; rewrite ?vscal_length; congruence).
    rewrite vadd_length; rewrite ?vscal_length; congruence.
  - split; [exact B|]. rewrite stage_SS. unfold later. assert (L1 := LG _ B).
    assert (L2 : length (vshift (RtoC 1) (vadd (vscal (RtoC (2 * w1 * r (S (S j)) * delta)) (G (stage (S j) X Z))) (vscal (RtoC (2 * w0 * r (S (S j)))) (stage (S j) X Z)))) = n).
    { unfold vshift. rewrite map_length, vadd_length; rewrite ?vscal_length; congruence. }
    rewrite vsub_length; congruence.
Qed.

(** differences of two executions *)
Lemma later_difference : forall j A A' B B', length A = n -> length A' = n -> length B = n -> length B' = n ->
  vsub (later j A B) (later j A' B') =
  vsub (vadd (vscal (RtoC (2 * w1 * r j * delta)) (vsub (G A) (G A'))) (vscal (RtoC (2 * w0 * r j)) (vsub A A'))) (vsub B B').
Proof.
  intros j A A' B B' LA LA' LB LB'. unfold later. assert (L1 := LG _ LA). assert (L2 := LG _ LA').
  revert L1 L2. generalize (G A) (G A'). clear LG. revert A A' B B' LA LA' LB LB'. unfold vsub, vadd, vscal, vshift.
  induction n as [|k IH]; intros [|a A] [|a' A'] [|b B] [|b' B'] L1 L2 L3 L4 [|g g1] [|g' g1'] L5 L6; cbn in *; try lia; [reflexivity|].
  f_equal; [ring|apply IH; lia].
Qed.
Lemma first_difference : forall X X' Z Z', length X = n -> length X' = n -> length Z = n -> length Z' = n ->
  let u := vadd X (vscal (RtoC (nu1 * sqrt (2 * delta))) Z) in let u' := vadd X' (vscal (RtoC (nu1 * sqrt (2 * delta))) Z') in
  vsub (first X Z) (first X' Z') =
  vadd (vadd (vsub X X') (vscal (RtoC (w1 / w0 * delta)) (vsub (G u) (G u')))) (vscal (RtoC (k1 * sqrt (2 * delta))) (vsub Z Z')) /\
  vsub u u' = vadd (vsub X X') (vscal (RtoC (nu1 * sqrt (2 * delta))) (vsub Z Z')).
Proof.
  intros X X' Z Z' LX LX' LZ LZ' u u'. unfold first. fold u u'.
  assert (Lu : length u = n) by (unfold u; rewrite vadd_length; rewrite ?vscal_length; congruence).
  assert (Lu' : length u' = n) by (unfold u'; rewrite vadd_length; rewrite ?vscal_length; congruence).
  split.
  - assert (L1 := LG _ Lu). assert (L2 := LG _ Lu'). revert L1 L2. generalize (G u) (G u'). clear LG Lu Lu' u u'.
    revert X X' Z Z' LX LX' LZ LZ'. unfold vsub, vadd, vscal.
    induction n as [|k IH]; intros [|a A] [|a' A'] [|b B] [|b' B'] L1 L2 L3 L4 [|g g1] [|g' g1'] L5 L6; cbn in *; try lia; [reflexivity|].
    f_equal; [ring|apply IH; lia].
  - unfold u, u'. clear LG Lu Lu' u u'. revert X X' Z Z' LX LX' LZ LZ'. unfold vsub, vadd, vscal.
    induction n as [|k IH]; intros [|a A] [|a' A'] [|b B] [|b' B'] L1 L2 L3 L4; cbn in *; try lia; [reflexivity|].
    f_equal; [ring|apply IH; lia].
Qed.

(** ** growth *)

Variable L : R.
Hypothesis HL : 0 <= L.
Hypothesis LIP : forall x y, length x = n -> length y = n -> nm (vsub (G x) (G y)) <= L * nm (vsub x y).
Hypothesis Hd : 0 <= delta.
Hypothesis Hw1 : 0 < w1.
Hypothesis Hr : forall j, (2 <= j <= m)%nat -> 1 <= Rabs (r j).
Hypothesis Hk : w1 * delta * L <= w0 - 1.

Lemma kappa_nonneg : 0 <= w1 * delta * L.
Proof. repeat apply Rmult_le_pos; auto; lra. Qed.

Lemma later_grows : forall j A A' B B', (2 <= j <= m)%nat -> length A = n -> length A' = n -> length B = n -> length B' = n ->
  2 * nm (vsub A A') - nm (vsub B B') <= nm (vsub (later j A B) (later j A' B')).
Proof.
  intros j A A' B B' Hj LA LA' LB LB'. rewrite later_difference by auto.
  assert (L1 := LG _ LA). assert (L2 := LG _ LA'). specialize (LIP A A' LA LA'). specialize (Hr j Hj).
  assert (K1 : forall a b : vec, length a = n -> length b = n -> length (vsub a b) = n) by (intros; rewrite vsub_length; congruence).
  set (dG := vsub (G A) (G A')) in *. set (dA := vsub A A') in *. set (dB := vsub B B').
  assert (LdG : length dG = n) by (apply K1; auto). assert (LdA : length dA = n) by (apply K1; auto). assert (LdB : length dB = n) by (apply K1; auto).
  assert (LS : length (vadd (vscal (RtoC (2 * w1 * r j * delta)) dG) (vscal (RtoC (2 * w0 * r j)) dA)) = n)
    by (rewrite vadd_length; rewrite ?vscal_length; congruence).
  assert (Q := proj1 (nm_vsub (vadd (vscal (RtoC (2 * w1 * r j * delta)) dG) (vscal (RtoC (2 * w0 * r j)) dA)) dB ltac:(congruence))).
  assert (Q2 := nm_vadd_lower (vscal (RtoC (2 * w0 * r j)) dA) (vscal (RtoC (2 * w1 * r j * delta)) dG) ltac:(rewrite !vscal_length; congruence)).
  assert (CM : vadd (vscal (RtoC (2 * w0 * r j)) dA) (vscal (RtoC (2 * w1 * r j * delta)) dG) = vadd (vscal (RtoC (2 * w1 * r j * delta)) dG) (vscal (RtoC (2 * w0 * r j)) dA)).
  { apply vadd_swap. }
  rewrite CM in Q2. rewrite !nm_vscal in Q2.
  assert (KN := kappa_nonneg). assert (NA := nm_nonneg dA). assert (NG := nm_nonneg dG).
  replace (Rabs (2 * w0 * r j)) with (2 * w0 * Rabs (r j)) in Q2 by (rewrite !Rabs_mult, !(Rabs_pos_eq 2), (Rabs_pos_eq w0); lra).
  replace (Rabs (2 * w1 * r j * delta)) with (2 * (w1 * delta) * Rabs (r j)) in Q2
    by (rewrite !Rabs_mult, (Rabs_pos_eq 2), (Rabs_pos_eq w1), (Rabs_pos_eq delta); lra).
  set (rj := Rabs (r j)) in *.
  assert (W : 0 <= w1 * delta) by (apply Rmult_le_pos; lra).
  assert (S1 : w1 * delta * nm dG <= w1 * delta * L * nm dA) by (rewrite (Rmult_assoc (w1 * delta)); apply Rmult_le_compat_l; auto).
  assert (S2 : nm dA <= (w0 - w1 * delta * L) * nm dA) by (rewrite <- (Rmult_1_l (nm dA)) at 1; apply Rmult_le_compat_r; lra).
  assert (S3 : nm dA <= w0 * nm dA - w1 * delta * nm dG) by lra.
  assert (S4 : nm dA <= rj * (w0 * nm dA - w1 * delta * nm dG)).
  { rewrite <- (Rmult_1_l (nm dA)) at 1. apply Rmult_le_compat; lra. }
  lra.
Qed.

Lemma stage_grows : forall X X' Z Z', length X = n -> length X' = n -> length Z = n -> length Z' = n ->
  forall i e, let D := fun j => nm (vsub (stage j X Z) (stage j X' Z')) in
  e <= D (S i) - D i -> forall t, (S i + t <= m)%nat ->
  D (S i) + INR t * e <= D (S i + t)%nat /\ e <= D (S i + t)%nat - D (i + t)%nat.
Proof.
  intros X X' Z Z' LX LX' LZ LZ' i e D HE. induction t as [|t IH]; intros Ht.
  - rewrite !Nat.add_0_r. cbn [INR]. split; lra.
  - destruct (IH ltac:(lia)) as (A & B).
    assert (GR := later_grows (S (S (i + t))) (stage (S (i + t)) X Z) (stage (S (i + t)) X' Z') (stage (i + t) X Z) (stage (i + t) X' Z')
       ltac:(lia) ltac:(apply stage_length; auto) ltac:(apply stage_length; auto) ltac:(apply stage_length; auto) ltac:(apply stage_length; auto)).
    rewrite <- !stage_SS in GR. fold (D (S (S (i + t)))) in GR. fold (D (S (i + t))) in GR. fold (D (i + t)%nat) in GR.
    replace (S i + S t)%nat with (S (S (i + t))) by lia. replace (i + S t)%nat with (S (i + t)) by lia.
    change (S i + t)%nat with (S (i + t)) in A, B. rewrite S_INR. lra.
Qed.

(** the same sample, two noise vectors *)
Lemma noise_grows : forall X Z Z', (1 <= m)%nat -> length X = n -> length Z = n -> length Z' = n -> 1 <= w0 ->
  INR m * (INR m * w1 / w0 * (1 - w1 * delta * L / 2)) * sqrt (2 * delta) * nm (vsub Z Z') <= nm (vsub (stage m X Z) (stage m X Z')).
Proof.
  intros X Z Z' Hm LX LZ LZ' W0. assert (SG := stage_grows X X Z Z' LX LX LZ LZ' 0).
  set (D := fun j => nm (vsub (stage j X Z) (stage j X Z'))) in SG. specialize (SG (D 1%nat)). cbv zeta in SG.
  assert (ZX : vsub X X = vzero n).
  { clear - LX. revert X LX. unfold vsub, vzero. induction n as [|k IH]; intros [|x X] LX; cbn in *; try lia; [reflexivity|]. f_equal; [ring|apply IH; lia]. }
  assert (NZ : nm (vzero n) = 0).
  { unfold nm. replace (nrm2 (vzero n)) with 0; [apply sqrt_0|]. rewrite <- ZX, nrm2_vsub_expand by auto.
    rewrite cdot_self, Re_RtoC. ring. }
  assert (D0 : D 0%nat = 0) by (unfold D; cbn [stage]; rewrite ZX; exact NZ).
  specialize (SG ltac:(rewrite D0; lra) (m - 1)%nat ltac:(lia)). destruct SG as (SG & _).
  change (D 1%nat + INR (m - 1) * D 1%nat <= D (1 + (m - 1))%nat) in SG.
  replace (1 + (m - 1))%nat with m in SG by lia.
  assert (EM : INR (m - 1) = INR m - 1) by (rewrite minus_INR by lia; reflexivity). rewrite EM in SG.
  change (nm (vsub (stage m X Z) (stage m X Z'))) with (D m).
  assert (M0 : 0 <= INR m) by apply pos_INR.
  apply Rle_trans with (INR m * D 1%nat); [|lra].
  assert (G1 : INR m * w1 / w0 * (1 - w1 * delta * L / 2) * sqrt (2 * delta) * nm (vsub Z Z') <= D 1%nat).
  { unfold D. cbn [stage]. destruct (first_difference X X Z Z' LX LX LZ LZ') as (E1 & E2). cbv zeta in E1, E2. rewrite E1. clear E1.
    set (u := vadd X (vscal (RtoC (nu1 * sqrt (2 * delta))) Z)) in *. set (u' := vadd X (vscal (RtoC (nu1 * sqrt (2 * delta))) Z')) in *.
    assert (Lu : length u = n) by (unfold u; rewrite vadd_length; rewrite ?vscal_length; congruence).
    assert (Lu' : length u' = n) by (unfold u'; rewrite vadd_length; rewrite ?vscal_length; congruence).
    assert (LI := LIP u u' Lu Lu'). assert (L1 := LG _ Lu). assert (L2 := LG _ Lu'). rewrite E2 in LI. rewrite ZX in *.
    assert (VZ : forall y, length y = n -> vadd (vzero n) y = y).
    { clear. unfold vadd, vzero. induction n as [|k IH]; intros [|y ys] L; cbn in *; try lia; [reflexivity|]. f_equal; [ring|apply IH; lia]. }
    assert (LdZ : length (vsub Z Z') = n) by (rewrite vsub_length; congruence).
    assert (LdG : length (vsub (G u) (G u')) = n) by (rewrite vsub_length; congruence).
    rewrite !VZ in * by (rewrite vscal_length; auto).
    assert (CM : vadd (vscal (RtoC (w1 / w0 * delta)) (vsub (G u) (G u'))) (vscal (RtoC (k1 * sqrt (2 * delta))) (vsub Z Z')) =
       vadd (vscal (RtoC (k1 * sqrt (2 * delta))) (vsub Z Z')) (vscal (RtoC (w1 / w0 * delta)) (vsub (G u) (G u')))).
    { apply vadd_swap. }
    rewrite CM. clear CM. eapply Rle_trans; [|apply nm_vadd_lower; rewrite !vscal_length; congruence].
    rewrite !nm_vscal in *. set (z := nm (vsub Z Z')) in *. assert (Z0 : 0 <= z) by apply nm_nonneg. set (g := nm (vsub (G u) (G u'))) in *.
    assert (S0 := sqrt_pos (2 * delta)). set (c := sqrt (2 * delta)) in *. unfold nu1, k1 in *.
    assert (I0 : 0 < / w0) by (apply Rinv_0_lt_compat; lra).
    assert (MW : 0 <= INR m * w1) by (apply Rmult_le_pos; lra).
    rewrite (Rabs_pos_eq (INR m * w1 / w0 * c)) by (repeat apply Rmult_le_pos; lra).
    rewrite (Rabs_pos_eq (w1 / w0 * delta)) by (repeat apply Rmult_le_pos; lra).
    rewrite (Rabs_pos_eq (INR m * w1 / 2 * c)) in LI by (repeat apply Rmult_le_pos; lra).
    assert (W : 0 <= w1 / w0 * delta) by (repeat apply Rmult_le_pos; lra).
    assert (Q := Rmult_le_compat_l _ _ _ W LI). 
    replace (w1 / w0 * delta * (L * (INR m * w1 / 2 * c * z))) with (INR m * w1 / w0 * (w1 * delta * L / 2) * c * z) in Q by (field; lra).
    lra. }
  assert (H := Rmult_le_compat_l _ _ _ M0 G1). lra.
Qed.

(** two samples, the same noise *)
Lemma sample_grows : forall X X' Z, (2 <= m)%nat -> length X = n -> length X' = n -> length Z = n -> r 2%nat <= -1 ->
  w1 * delta * L <= 125 / 10000 -> 1 <= w0 ->
  INR m * nm (vsub X X') <= nm (vsub (stage m X Z) (stage m X' Z)).
Proof.
  intros X X' Z Hm LX LX' LZ R2 KS W0. assert (KN := kappa_nonneg). set (kp := w1 * delta * L) in *.
  assert (SG := stage_grows X X' Z Z LX LX' LZ LZ 1). 
  set (D := fun j => nm (vsub (stage j X Z) (stage j X' Z))) in SG.
  set (d := vsub X X'). assert (Ld : length d = n) by (unfold d; rewrite vsub_length; congruence).
  assert (K1 : forall a b : vec, length a = n -> length b = n -> length (vsub a b) = n) by (intros; rewrite vsub_length; congruence).
  destruct (first_difference X X' Z Z LX LX' LZ LZ) as (E1 & E2). cbv zeta in E1, E2.
  set (u := vadd X (vscal (RtoC (nu1 * sqrt (2 * delta))) Z)) in *. set (u' := vadd X' (vscal (RtoC (nu1 * sqrt (2 * delta))) Z)) in *.
  assert (Lu : length u = n) by (unfold u; rewrite vadd_length; rewrite ?vscal_length; congruence).
  assert (Lu' : length u' = n) by (unfold u'; rewrite vadd_length; rewrite ?vscal_length; congruence).
  assert (AZ : forall a (t : R), length a = n -> vadd a (vscal (RtoC t) (vsub Z Z)) = a).
  { clear - LZ. intros a t. revert a Z LZ. unfold vadd, vscal, vsub. induction n as [|k IH]; intros [|x a] [|z Z] L1 L2; cbn in *; try lia; [reflexivity|].
    f_equal; [ring|apply IH; lia]. }
  assert (L1 := LG _ Lu). assert (L2 := LG _ Lu').
  set (e1 := vscal (RtoC (w1 / w0 * delta)) (vsub (G u) (G u'))) in *.
  assert (Le1 : length e1 = n) by (unfold e1; rewrite vscal_length; auto).
  assert (LS : length (vadd (vsub X X') e1) = n) by (rewrite vadd_length; [auto|]; rewrite Le1; auto).
  rewrite AZ in E1, E2 by auto. fold d in E1, E2.
  assert (N1 : w0 * nm e1 <= kp * nm d).
  { unfold e1. rewrite nm_vscal. assert (LI := LIP u u' Lu Lu'). rewrite E2 in LI.
    assert (I0 : 0 < / w0) by (apply Rinv_0_lt_compat; lra).
    rewrite Rabs_pos_eq by (repeat apply Rmult_le_pos; lra).
    replace (w0 * (w1 / w0 * delta * nm (vsub (G u) (G u')))) with (w1 * delta * nm (vsub (G u) (G u'))) by (field; lra).
    unfold kp. rewrite (Rmult_assoc (w1 * delta)). apply Rmult_le_compat_l; [apply Rmult_le_pos; lra|exact LI]. }
  assert (ND := nm_nonneg d). assert (NE := nm_nonneg e1).
  assert (NE' : nm e1 <= kp * nm d) by nra.
  set (A := first X Z) in *. set (A' := first X' Z) in *.
  assert (LA : length A = n) by (apply (stage_length 1 X Z); auto). assert (LA' : length A' = n) by (apply (stage_length 1 X' Z); auto).
  assert (D1 : D 1%nat <= (1 + kp) * nm d).
  { unfold D. cbn [stage]. fold A A'. rewrite E1. eapply Rle_trans; [apply nm_vadd; congruence|]. lra. }
  assert (D2 : (1 + 2 * (w0 - (kp + kp * (1 + kp)))) * nm d <= D 2%nat).
  { unfold D. cbn [stage]. fold A A'. rewrite later_difference by auto. fold d.
    assert (LI := LIP A A' LA LA'). assert (L3 := LG _ LA). assert (L4 := LG _ LA'). set (dG := vsub (G A) (G A')) in *.
    assert (LdG : length dG = n) by (apply K1; auto). rewrite E1 in *.
    set (e := vadd (vscal (RtoC w0) e1) (vscal (RtoC (w1 * delta)) dG)).
    assert (Le : length e = n) by (unfold e; rewrite vadd_length; rewrite ?vscal_length; congruence).
    set (s := - r 2%nat) in *.
    assert (EQ : vsub (vadd (vscal (RtoC (2 * w1 * r 2%nat * delta)) dG) (vscal (RtoC (2 * w0 * r 2%nat)) (vadd d e1))) d =
       vscal (RtoC (-1)) (vadd (vscal (RtoC (1 + 2 * s * w0)) d) (vscal (RtoC (2 * s)) e))).
    { unfold e, s. clearbody d dG e1. clear - Ld LdG Le1. revert d dG e1 Ld LdG Le1. unfold vsub, vadd, vscal. induction n as [|k IH]; intros [|x d] [|g dG] [|y e1] L1 L2 L3; cbn in *; try lia; [reflexivity|].
      f_equal; [|apply IH; lia]. apply C_ext; cbn; ring. }
    rewrite EQ, nm_vscal, Rabs_left by lra.
    assert (Q := nm_vadd_lower (vscal (RtoC (1 + 2 * s * w0)) d) (vscal (RtoC (2 * s)) e) ltac:(rewrite !vscal_length; congruence)).
    rewrite !nm_vscal in Q. assert (S1 : 1 <= s) by (unfold s; lra).
    rewrite (Rabs_pos_eq (1 + 2 * s * w0)) in Q by nra. rewrite (Rabs_pos_eq (2 * s)) in Q by lra.
    assert (NEe : nm e <= (kp + kp * (1 + kp)) * nm d).
    { unfold e. eapply Rle_trans; [apply nm_vadd; rewrite !vscal_length; congruence|]. rewrite !nm_vscal.
      assert (WD : 0 <= w1 * delta) by (apply Rmult_le_pos; lra). rewrite (Rabs_pos_eq w0), (Rabs_pos_eq (w1 * delta)) by lra.
      unfold D in D1. cbn [stage] in D1. fold A A' in D1. rewrite E1 in D1.
      assert (w1 * delta * nm dG <= kp * ((1 + kp) * nm d)); [|lra].
      apply Rle_trans with (kp * nm (vadd d e1)); [|apply Rmult_le_compat_l; auto].
      unfold kp. rewrite (Rmult_assoc (w1 * delta)). apply Rmult_le_compat_l; auto. }
    assert (P : 0 <= w0 - (kp + kp * (1 + kp))) by nra.
    assert (Q3 : (w0 - (kp + kp * (1 + kp))) * nm d <= w0 * nm d - nm e) by lra.
    assert (Q4 : 0 <= (w0 - (kp + kp * (1 + kp))) * nm d) by (apply Rmult_le_pos; auto).
    assert (Q5 : (w0 - (kp + kp * (1 + kp))) * nm d <= s * (w0 * nm d - nm e)).
    { rewrite <- (Rmult_1_l ((w0 - (kp + kp * (1 + kp))) * nm d)). apply Rmult_le_compat; lra. }
    lra. }
  assert (D2' : 29 / 10 * nm d <= D 2%nat).
  { eapply Rle_trans; [|exact D2]. apply Rmult_le_compat_r; nra. }
  assert (D1' : D 1%nat <= 11 / 10 * nm d) by nra.
  specialize (SG (18 / 10 * nm d)). cbv zeta in SG. specialize (SG ltac:(change (18 / 10 * nm d <= D 2%nat - D 1%nat); lra) (m - 2)%nat ltac:(lia)).
  destruct SG as (SG & _). change (D 2%nat + INR (m - 2) * (18 / 10 * nm d) <= D (2 + (m - 2))%nat) in SG.
  replace (2 + (m - 2))%nat with m in SG by lia. rewrite minus_INR in SG by lia. cbn [INR] in SG. 
  change (nm (vsub (stage m X Z) (stage m X' Z))) with (D m). fold d.
  assert (M2 : 2 <= INR m) by (change 2 with (INR 2); apply le_INR; auto). nra.
Qed.

End Stages.
