(** C24, continued: the quadrature of a spherical harmonic expansion is its
    monopole coefficient (tests/test_utils.py:83-100). *)
From Coq Require Import List ZArith Lia Bool Reals Lra.
From Coquelicot Require Import Coquelicot.
From Verif Require Import PyBase CVec ThreshProof TrigSum Quad QuadSpec QuadProof QuadMain P_Quad.
Import ListNotations.
Open Scope R_scope.

(** derivatives of the Legendre polynomials: (P'_n, P'_{n+1}) *)
Fixpoint dlegendre2 (n : nat) (x : R) : R * R :=
  match n with
  | O => (0, 1)
  | S n' => let '(dp, dq) := dlegendre2 n' x in
            (dq, (INR (2 * n + 1) * (snd (legendre2 n' x) + x * dq) - INR n * dp) / INR (S n))
  end.
Definition dlegendre (n : nat) (x : R) : R := fst (dlegendre2 n x).

Lemma leg_snd : forall n x, snd (legendre2 n x) = legendre (S n) x.
Proof. intros n x. unfold legendre. cbn [legendre2]. destruct (legendre2 n x). reflexivity. Qed.
Lemma leg_SS : forall n x, INR (S (S n)) * legendre (S (S n)) x = INR (2 * n + 3) * x * legendre (S n) x - INR (S n) * legendre n x.
Proof.
  intros n x. rewrite <- leg_snd. unfold legendre. cbn [legendre2]. destruct (legendre2 n x) as [p q]. cbn [snd fst].
  replace (2 * S n + 1)%nat with (2 * n + 3)%nat by lia. field. apply not_0_INR. lia.
Qed.
Lemma dleg_snd : forall n x, snd (dlegendre2 n x) = dlegendre (S n) x.
Proof. intros n x. unfold dlegendre. cbn [dlegendre2]. destruct (dlegendre2 n x). reflexivity. Qed.
Lemma dleg_SS : forall n x, INR (S (S n)) * dlegendre (S (S n)) x =
  INR (2 * n + 3) * (legendre (S n) x + x * dlegendre (S n) x) - INR (S n) * dlegendre n x.
Proof.
  intros n x. rewrite <- (dleg_snd (S n)), <- leg_snd, <- dleg_snd. unfold dlegendre. cbn [dlegendre2]. destruct (dlegendre2 n x) as [p q]. cbn [snd fst].
  replace (2 * S n + 1)%nat with (2 * n + 3)%nat by lia. field. apply not_0_INR. lia.
Qed.

Lemma legendre_derive2 : forall n x, is_derive (legendre n) x (dlegendre n x) /\ is_derive (legendre (S n)) x (dlegendre (S n) x).
Proof.
  induction n as [|n IH]; intros x.
  - split; unfold legendre, dlegendre; cbn [legendre2 dlegendre2 fst]; [apply (is_derive_const 1 x)|apply (is_derive_id x)].
  - destruct (IH x) as [D0 D1]. split; [exact D1|].
    assert (N : INR (S (S n)) <> 0) by (apply not_0_INR; lia).
    assert (E : forall y : R, (INR (2 * n + 3) * (y * legendre (S n) y) - INR (S n) * legendre n y) / INR (S (S n)) = legendre (S (S n)) y).
    { intros y. rewrite <- Rmult_assoc, <- leg_SS. field. exact N. }
    apply is_derive_ext with (fun y => (INR (2 * n + 3) * (y * legendre (S n) y) - INR (S n) * legendre n y) / INR (S (S n))); [exact E|].
    replace (dlegendre (S (S n)) x) with ((INR (2 * n + 3) * (legendre (S n) x + x * dlegendre (S n) x) - INR (S n) * dlegendre n x) / INR (S (S n)))
      by (rewrite <- dleg_SS; field; exact N).
    unfold Rdiv. apply is_derive_Reals in D0. apply is_derive_Reals in D1. apply is_derive_Reals.
    apply (derivable_pt_lim_scal_right _ x (INR (2 * n + 3) * (legendre (S n) x + x * dlegendre (S n) x) - INR (S n) * dlegendre n x) (/ INR (S (S n)))).
    apply (derivable_pt_lim_minus (fun y => INR (2 * n + 3) * (y * legendre (S n) y)) (fun y => INR (S n) * legendre n y)).
    + apply (derivable_pt_lim_scal (fun y => y * legendre (S n) y)).
      replace (legendre (S n) x + x * dlegendre (S n) x) with (1 * legendre (S n) x + x * dlegendre (S n) x) by ring.
      apply (derivable_pt_lim_mult (fun y => y) (legendre (S n))); [apply derivable_pt_lim_id|exact D1].
    + apply (derivable_pt_lim_scal (legendre n)). exact D0.
Qed.

(** the two classical relations *)
Lemma legendre_relations : forall n x,
  dlegendre (S n) x = x * dlegendre n x + INR (S n) * legendre n x /\
  x * dlegendre (S n) x = dlegendre n x + INR (S n) * legendre (S n) x.
Proof.
  induction n as [|n IH]; intros x.
  - unfold dlegendre, legendre. cbn. lra.
  - destruct (IH x) as [I1 I2]. assert (N : INR (S (S n)) <> 0) by (apply not_0_INR; lia).
    assert (B := leg_SS n x). assert (D := dleg_SS n x).
    assert (E1 : INR (2 * n + 3) = 2 * INR n + 3) by (rewrite plus_INR, mult_INR; cbn; ring).
    rewrite E1, !S_INR in *. set (k := INR n) in *.
    assert (R1 : dlegendre (S (S n)) x = x * dlegendre (S n) x + (k + 1 + 1) * legendre (S n) x).
    { apply Rmult_eq_reg_l with (k + 1 + 1); [|exact N]. rewrite D. nra. }
    split; [exact R1|]. rewrite R1.
    replace (dlegendre (S n) x + (k + 1 + 1) * legendre (S (S n)) x) with (dlegendre (S n) x + ((2 * k + 3) * x * legendre (S n) x - (k + 1) * legendre n x))
      by (rewrite <- B; ring).
    assert (Q : x * (x * dlegendre (S n) x) - dlegendre (S n) x = (k + 1) * (x * legendre (S n) x - legendre n x)) by (rewrite I2, I1 at 1; ring).
    nra.
Qed.

Lemma legendre_ends : forall n, legendre n 1 = 1 /\ legendre n (-1) = (-1) ^ n /\ legendre (S n) 1 = 1 /\ legendre (S n) (-1) = (-1) ^ (S n).
Proof.
  induction n as [|n (A & B & A' & B')]; [unfold legendre; cbn; lra|].
  assert (N : INR (S (S n)) <> 0) by (apply not_0_INR; lia).
  assert (E1 : INR (2 * n + 3) = 2 * INR n + 3) by (rewrite plus_INR, mult_INR; cbn; ring).
  split; [exact A'|]. split; [exact B'|]. split.
  - apply Rmult_eq_reg_l with (INR (S (S n))); [|exact N]. rewrite leg_SS, A, A', E1, !S_INR. ring.
  - apply Rmult_eq_reg_l with (INR (S (S n))); [|exact N]. rewrite leg_SS, B, B', E1, !S_INR. cbn [pow]. ring.
Qed.

Lemma legendre_integral : forall l, is_RInt (fun th => sin th * legendre l (cos th)) 0 PI (if Nat.eqb l 0 then 2 else 0).
Proof.
  assert (DC : forall n th, is_derive (fun t => legendre n (cos t)) th (- sin th * dlegendre n (cos th))).
  { intros n th. apply (is_derive_comp (legendre n) cos th); [apply legendre_derive2|]. apply is_derive_Reals, derivable_pt_lim_cos. }
  intros [|l].
  - cbn [Nat.eqb]. replace 2 with (minus ((fun t => - cos t) PI) ((fun t => - cos t) 0)).
    2:{ unfold minus, plus, opp; cbn. rewrite cos_PI, cos_0. ring. }
    apply is_RInt_ext with sin; [intros x _; unfold legendre; cbn; ring|].
    apply (is_RInt_derive (fun t => - cos t)); [intros x _; auto_derive; auto; ring|].
    intros x _. apply (ex_derive_continuous sin). auto_derive; auto.
  - cbn [Nat.eqb]. set (F := fun t => (legendre l (cos t) - legendre (S (S l)) (cos t)) / INR (2 * l + 3)).
    assert (N : INR (2 * l + 3) <> 0) by (apply not_0_INR; lia).
    replace 0 with (minus (F PI) (F 0)) at 2.
    2:{ unfold F, minus, plus, opp; cbn. rewrite cos_PI, cos_0. destruct (legendre_ends l) as (A & B & _). destruct (legendre_ends (S l)) as (_ & _ & A' & B').
        rewrite A, A', B, B'. cbn [pow]. field. exact N. }
    apply (is_RInt_derive F).
    + intros x _. unfold F.
      replace (sin x * legendre (S l) (cos x)) with ((- sin x * dlegendre l (cos x) - (- sin x * dlegendre (S (S l)) (cos x))) * / INR (2 * l + 3)).
      * apply is_derive_Reals. apply (derivable_pt_lim_scal_right _ x _ (/ INR (2 * l + 3))).
        apply (derivable_pt_lim_minus (fun t => legendre l (cos t)) (fun t => legendre (S (S l)) (cos t))); apply is_derive_Reals, DC.
      * destruct (legendre_relations l (cos x)) as (_ & R2). destruct (legendre_relations (S l) (cos x)) as (R1 & _).
        rewrite R1, R2. assert (E : INR (2 * l + 3) = INR (S l) + INR (S (S l))) by (rewrite <- plus_INR; f_equal; lia). rewrite E in *. field. exact N.
    + intros x _. apply (ex_derive_continuous (fun t => sin t * legendre (S l) (cos t))). eexists.
      apply is_derive_Reals. apply (derivable_pt_lim_mult sin (fun t => legendre (S l) (cos t))); [apply derivable_pt_lim_sin|apply is_derive_Reals, DC].
Qed.

(** the integral of the expansion *)
Lemma harmonic_integral : forall L N Qp Qm a0 ap am, (1 <= L)%nat ->
  is_sphere_integral (harmonic_expansion L N Qp Qm a0 ap am) (RtoC (4 * PI * N 0%nat) * a0 0%nat)%C.
Proof.
  intros L N Qp Qm a0 ap am HL.
  exists (fun th => csumn L (fun l => RtoC (2 * PI) * (a0 l * RtoC (N l * legendre l (cos th)))))%C. split.
  - intros th _.
    apply is_CInt_ext with (fun ph => csumn L (fun l => a0 l * RtoC (N l * legendre l (cos th)) +
      csumn l (fun i => ap l (S i) * Qp l (S i) th * cexpi (INR (S i) * ph) + am l (S i) * Qm l (S i) th * cexpi (- (INR (S i) * ph)))))%C.
    { intros ph. unfold harmonic_expansion. apply csumn_ext. intros l Hl. f_equal. rewrite seq_csumn. apply csumn_ext. intros i Hi. ring. }
    apply is_CInt_sum. intros l Hl.
    replace (RtoC (2 * PI) * (a0 l * RtoC (N l * legendre l (cos th))))%C with (RtoC (2 * PI - 0) * (a0 l * RtoC (N l * legendre l (cos th))) + csumn l (fun _ => RtoC 0))%C.
    2:{ rewrite csumn_zero by auto. rewrite Rminus_0_r. ring. }
    apply is_CInt_plus; [apply is_CInt_const|]. apply is_CInt_sum. intros i Hi.
    replace (RtoC 0) with (ap l (S i) * Qp l (S i) th * RtoC 0 + am l (S i) * Qm l (S i) th * RtoC 0)%C by ring.
    apply is_CInt_plus; apply is_CInt_scal; [apply is_CInt_cexpi|apply is_CInt_cexpi_neg]; lia.
  - apply is_CInt_ext with (fun th => csumn L (fun l => RtoC (2 * PI * N l) * a0 l * RtoC (sin th * legendre l (cos th))))%C.
    { intros th. rewrite <- csumn_scal. apply csumn_ext. intros l Hl. rewrite !RtoC_mult. ring. }
    replace (RtoC (4 * PI * N 0%nat) * a0 0%nat)%C with (csumn L (fun l => RtoC (2 * PI * N l) * a0 l * RtoC (if Nat.eqb l 0 then 2 else 0)))%C.
    2:{ rewrite (csumn_single L 0); [|lia|].
        - cbn [Nat.eqb]. replace (4 * PI * N 0%nat) with (2 * PI * N 0%nat * 2) by ring. rewrite (RtoC_mult (2 * PI * N 0%nat)). ring.
        - intros i _ Hi. destruct (Nat.eqb_spec i 0); [lia|]. ring. }
    apply is_CInt_sum. intros l Hl. apply is_CInt_scal, is_CInt_real, legendre_integral.
Qed.

(** s2_integrate of a map with harmonic coefficients [a0], [ap], [am] is
    4 pi N_0 times the monopole coefficient; with the orthonormal harmonics,
    sqrt(4 pi) times it *)
Theorem C24_monopole : forall L N Qp Qm a0 ap am, (1 <= L)%nat ->
  let f := harmonic_expansion L N Qp Qm a0 ap am in
  s2_integrate (mw_sample f L) (Z.of_nat L) = Ok (RtoC (4 * PI * N 0%nat) * a0 0%nat)%C /\
  (N 0%nat = / sqrt (4 * PI) -> s2_integrate (mw_sample f L) (Z.of_nat L) = Ok (a0 0%nat * RtoC (sqrt (4 * PI)))%C).
Proof.
  intros L N Qp Qm a0 ap am HL f. destruct (C24_harmonics_exact L N Qp Qm a0 ap am HL) as (I & E & H). fold f in E, H.
  rewrite (C24_integral_unique _ _ _ H (harmonic_integral L N Qp Qm a0 ap am HL)) in E. split; [exact E|].
  intros EN. rewrite E. f_equal. rewrite EN. assert (P : 0 < 4 * PI) by (pose proof PI_RGT_0; lra).
  assert (S0 : sqrt (4 * PI) <> 0) by (apply Rgt_not_eq, sqrt_lt_R0, P).
  replace (4 * PI * / sqrt (4 * PI)) with (sqrt (4 * PI)); [ring|]. rewrite <- (sqrt_sqrt (4 * PI)) at 2 by lra. field. exact S0.
Qed.
Print Assumptions C24_monopole.

(** L = 2: 3 Y_00 + 5 Y_10 integrates to 3 sqrt(4 pi) *)
Example C24_case_monopole :
  let N := fun l => sqrt (INR (2 * l + 1) / (4 * PI)) in let z := fun _ _ : nat => RtoC 0 in let q := fun _ _ (_ : R) => RtoC 0 in
  s2_integrate (mw_sample (harmonic_expansion 2 N q q (fun l => if Nat.eqb l 0 then RtoC 3 else RtoC 5) z z) 2) 2 = Ok (RtoC 3 * RtoC (sqrt (4 * PI)))%C.
Proof.
  intros N z q. apply (proj2 (C24_monopole 2 N q q (fun l => if Nat.eqb l 0 then RtoC 3 else RtoC 5) z z ltac:(lia))). unfold N. cbn [Nat.mul Nat.add INR]. unfold Rdiv. rewrite Rmult_1_l. 
  symmetry. apply inv_sqrt. pose proof PI_RGT_0; lra.
Qed.
