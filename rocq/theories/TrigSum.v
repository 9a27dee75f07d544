(** Finite trigonometric sums (discrete orthogonality) and a few integrals. *)
From Coq Require Import List ZArith Lia Bool Reals Lra Psatz Arith.
From Coquelicot Require Import Coquelicot.
From Verif Require Import CVec.
Import ListNotations.
Open Scope R_scope.

(** ** finite sums over ranges *)
Definition rsumn (n : nat) (f : nat -> R) : R := rsum (map f (seq 0 n)).

Lemma rsumn_S : forall n f, rsumn (S n) f = rsumn n f + f n.
Proof.
  intros; unfold rsumn. rewrite seq_S, map_app, rsum_app. simpl. ring.
Qed.
Lemma rsumn_0 : forall f, rsumn 0 f = 0. Proof. reflexivity. Qed.
Lemma rsumn_ext : forall n f g, (forall i, (i < n)%nat -> f i = g i) -> rsumn n f = rsumn n g.
Proof. intros; unfold rsumn; apply rsum_map_ext; intros a Ha; apply in_seq in Ha; apply H; lia. Qed.
Lemma rsumn_plus : forall n f g, rsumn n (fun i => f i + g i) = rsumn n f + rsumn n g.
Proof. intros; apply rsum_map_plus. Qed.
Lemma rsumn_scal : forall n c f, rsumn n (fun i => c * f i) = c * rsumn n f.
Proof. intros; apply rsum_map_scal. Qed.
Lemma rsumn_const : forall n c, rsumn n (fun _ => c) = INR n * c.
Proof. intros; unfold rsumn; rewrite rsum_const, seq_length; reflexivity. Qed.
Lemma rsumn_zero : forall n f, (forall i, (i < n)%nat -> f i = 0) -> rsumn n f = 0.
Proof. intros. rewrite (rsumn_ext n f (fun _ => 0)) by auto. rewrite rsumn_const. ring. Qed.
Lemma rsumn_le : forall n f g, (forall i, (i < n)%nat -> f i <= g i) -> rsumn n f <= rsumn n g.
Proof. intros; unfold rsumn; apply rsum_map_le; intros a Ha; apply in_seq in Ha; apply H; lia. Qed.
Lemma rsumn_nonneg : forall n f, (forall i, (i < n)%nat -> 0 <= f i) -> 0 <= rsumn n f.
Proof. intros; unfold rsumn; apply rsum_nonneg; intros a Ha. apply in_map_iff in Ha.
  destruct Ha as [i [<- Hi]]. apply in_seq in Hi. apply H; lia. Qed.
Lemma rsumn_telescope : forall n (F : nat -> R), rsumn n (fun t => F (S t) - F t) = F n - F O.
Proof. induction n; intros; [rewrite rsumn_0; ring|]. rewrite rsumn_S, IHn. ring. Qed.
Lemma rsumn_add : forall n m f, rsumn (n + m) f = rsumn n f + rsumn m (fun i => f (n + i)%nat).
Proof.
  induction m; intros; [rewrite Nat.add_0_r, rsumn_0; ring|].
  rewrite Nat.add_succ_r, !rsumn_S, IHm. ring.
Qed.
Lemma rsumn_shift : forall n f, rsumn (S n) f = f O + rsumn n (fun i => f (S i)).
Proof. intros. change (S n) with (1 + n)%nat. rewrite rsumn_add, rsumn_S, rsumn_0. simpl. ring. Qed.
Lemma rsumn_rev : forall n f, rsumn n f = rsumn n (fun i => f (n - 1 - i)%nat).
Proof.
  induction n; intros; [reflexivity|].
  rewrite rsumn_S, rsumn_shift. rewrite (IHn f).
  replace (S n - 1 - 0)%nat with n by lia.
  rewrite Rplus_comm. f_equal. apply rsumn_ext; intros; f_equal; lia.
Qed.
Lemma rsumn_exchange : forall n m (f : nat -> nat -> R),
  rsumn n (fun i => rsumn m (fun j => f i j)) = rsumn m (fun j => rsumn n (fun i => f i j)).
Proof.
  induction n; intros.
  - rewrite rsumn_0. symmetry; apply rsumn_zero; auto.
  - rewrite rsumn_S, IHn, <- rsumn_plus. apply rsumn_ext; intros; rewrite rsumn_S; auto.
Qed.
Lemma rsumn_single : forall n k f, (k < n)%nat -> (forall i, (i < n)%nat -> i <> k -> f i = 0) ->
  rsumn n f = f k.
Proof.
  induction n; intros k f Hk H; [lia|]. rewrite rsumn_S. destruct (Nat.eq_dec k n).
  - subst. rewrite rsumn_zero; [ring|]. intros; apply H; lia.
  - rewrite (IHn k) by (try lia; intros; apply H; lia). rewrite (H n) by lia. ring.
Qed.
Lemma seq_rsumn : forall n f, rsum (map f (seq 1 n)) = rsumn n (fun i => f (S i)).
Proof. intros; unfold rsumn. rewrite <- seq_shift, map_map. reflexivity. Qed.

(** ** periodicity *)
Lemma cos_period_nat : forall x k, cos (2 * PI * INR k + x) = cos x.
Proof. intros. replace (2 * PI * INR k + x) with (x + 2 * INR k * PI) by ring. apply cos_period. Qed.
Lemma sin_period_nat : forall x k, sin (2 * PI * INR k + x) = sin x.
Proof. intros. replace (2 * PI * INR k + x) with (x + 2 * INR k * PI) by ring. apply sin_period. Qed.
Lemma sin_2PI_nat : forall k, sin (2 * PI * INR k) = 0.
Proof. intros. rewrite <- (Rplus_0_r (2 * PI * INR k)), sin_period_nat. apply sin_0. Qed.
Lemma cos_2PI_nat : forall k, cos (2 * PI * INR k) = 1.
Proof. intros. rewrite <- (Rplus_0_r (2 * PI * INR k)), cos_period_nat. apply cos_0. Qed.

Lemma sin_jpi_n_pos : forall j n, (0 < j < n)%nat -> 0 < sin (INR j * PI / INR n).
Proof.
  intros j n H.
  assert (0 < INR j) by (apply lt_0_INR; lia). assert (0 < INR n) by (apply lt_0_INR; lia).
  assert (INR j < INR n) by (apply lt_INR; lia). assert (P := PI_RGT_0).
  apply sin_gt_0.
  - apply Rmult_lt_0_compat; [apply Rmult_lt_0_compat; auto|apply Rinv_0_lt_compat; auto].
  - apply Rmult_lt_reg_r with (INR n); auto. unfold Rdiv. rewrite Rmult_assoc, Rinv_l by lra. nra.
Qed.

(** sum over the odd points (2t+1) pi/n *)
Lemma sum_cos_odd : forall j n, (0 < j < n)%nat ->
  rsumn n (fun t => cos (INR j * (INR (2 * t + 1) * PI / INR n))) = 0.
Proof.
  intros j n H. assert (S := sin_jpi_n_pos j n H).
  assert (N : INR n <> 0) by (apply not_0_INR; lia).
  set (F := fun t : nat => sin (2 * INR t * (INR j * PI / INR n))).
  assert (E : 2 * sin (INR j * PI / INR n) * rsumn n (fun t => cos (INR j * (INR (2 * t + 1) * PI / INR n)))
              = F n - F O).
  { rewrite <- rsumn_telescope, <- rsumn_scal. apply rsumn_ext; intros t _. unfold F.
    set (a := INR j * PI / INR n).
    replace (INR j * (INR (2 * t + 1) * PI / INR n)) with ((2 * INR t + 1) * a)
      by (unfold a; rewrite plus_INR, mult_INR; simpl; field; auto).
    replace (2 * INR (Datatypes.S t) * a) with ((2 * INR t + 1) * a + a) by (rewrite S_INR; ring).
    replace (2 * INR t * a) with ((2 * INR t + 1) * a - a) by ring.
    rewrite sin_plus, sin_minus. ring. }
  assert (F n = 0).
  { unfold F. replace (2 * INR n * (INR j * PI / INR n)) with (2 * PI * INR j) by (field; auto).
    apply sin_2PI_nat. }
  assert (F O = 0) by (unfold F; simpl; rewrite Rmult_0_r, Rmult_0_l; apply sin_0).
  rewrite H0, H1 in E. nra.
Qed.

(** sums over the points 2 pi p/n *)
Lemma sum_cos_grid : forall j n, (0 < j < n)%nat ->
  rsumn n (fun p => cos (INR j * (2 * PI * INR p / INR n))) = 0.
Proof.
  intros j n H. assert (S := sin_jpi_n_pos j n H).
  assert (N : INR n <> 0) by (apply not_0_INR; lia).
  set (F := fun t : nat => sin ((2 * INR t - 1) * (INR j * PI / INR n))).
  assert (E : 2 * sin (INR j * PI / INR n) * rsumn n (fun p => cos (INR j * (2 * PI * INR p / INR n)))
              = F n - F O).
  { rewrite <- rsumn_telescope, <- rsumn_scal. apply rsumn_ext; intros t _. unfold F.
    set (a := INR j * PI / INR n).
    replace (INR j * (2 * PI * INR t / INR n)) with (2 * INR t * a) by (unfold a; field; auto).
    replace ((2 * INR (Datatypes.S t) - 1) * a) with (2 * INR t * a + a) by (rewrite S_INR; ring).
    replace ((2 * INR t - 1) * a) with (2 * INR t * a - a) by ring.
    rewrite sin_plus, sin_minus. ring. }
  assert (F n = F O).
  { unfold F.
    replace ((2 * INR n - 1) * (INR j * PI / INR n)) with (2 * PI * INR j + - (INR j * PI / INR n)) by (field; auto).
    rewrite sin_period_nat. f_equal. simpl. ring. }
  rewrite H0 in E. nra.
Qed.
Lemma sum_sin_grid : forall j n, (0 < j < n)%nat ->
  rsumn n (fun p => sin (INR j * (2 * PI * INR p / INR n))) = 0.
Proof.
  intros j n H. assert (S := sin_jpi_n_pos j n H).
  assert (N : INR n <> 0) by (apply not_0_INR; lia).
  set (F := fun t : nat => - cos ((2 * INR t - 1) * (INR j * PI / INR n))).
  assert (E : 2 * sin (INR j * PI / INR n) * rsumn n (fun p => sin (INR j * (2 * PI * INR p / INR n)))
              = F n - F O).
  { rewrite <- rsumn_telescope, <- rsumn_scal. apply rsumn_ext; intros t _. unfold F.
    set (a := INR j * PI / INR n).
    replace (INR j * (2 * PI * INR t / INR n)) with (2 * INR t * a) by (unfold a; field; auto).
    replace ((2 * INR (Datatypes.S t) - 1) * a) with (2 * INR t * a + a) by (rewrite S_INR; ring).
    replace ((2 * INR t - 1) * a) with (2 * INR t * a - a) by ring.
    rewrite cos_plus, cos_minus. ring. }
  assert (F n = F O).
  { unfold F.
    replace ((2 * INR n - 1) * (INR j * PI / INR n)) with (2 * PI * INR j + - (INR j * PI / INR n)) by (field; auto).
    rewrite cos_period_nat. f_equal. f_equal. simpl. ring. }
  rewrite H0 in E. nra.
Qed.

(** orthogonality of the cosines on the odd points *)
Lemma cos_orthogonal : forall L m k, (1 <= L)%nat -> (m < L)%nat -> (k < L)%nat ->
  rsumn (2 * L - 1) (fun t => cos (INR m * (INR (2 * t + 1) * PI / INR (2 * L - 1)))
                            * cos (INR k * (INR (2 * t + 1) * PI / INR (2 * L - 1))))
  = if Nat.eqb m k then (if Nat.eqb k 0 then INR (2 * L - 1) else INR (2 * L - 1) / 2) else 0.
Proof.
  intros L m k HL Hm Hk. set (n := (2 * L - 1)%nat).
  assert (E : forall a b, (b <= a)%nat -> (a < L)%nat ->
     rsumn n (fun t => cos (INR a * (INR (2 * t + 1) * PI / INR n)) * cos (INR b * (INR (2 * t + 1) * PI / INR n)))
     = / 2 * (rsumn n (fun t => cos (INR (a + b) * (INR (2 * t + 1) * PI / INR n)))
              + rsumn n (fun t => cos (INR (a - b) * (INR (2 * t + 1) * PI / INR n))))).
  { intros a b Hab _. rewrite <- rsumn_plus, <- rsumn_scal. apply rsumn_ext; intros t _.
    rewrite (plus_INR a b), (minus_INR a b) by auto. set (x := INR (2 * t + 1) * PI / INR n).
    replace ((INR a + INR b) * x) with (INR a * x + INR b * x) by ring.
    replace ((INR a - INR b) * x) with (INR a * x - INR b * x) by ring.
    rewrite cos_plus, cos_minus. field. }
  assert (D : forall a b, (b <= a)%nat -> (a < L)%nat ->
     rsumn n (fun t => cos (INR a * (INR (2 * t + 1) * PI / INR n)) * cos (INR b * (INR (2 * t + 1) * PI / INR n)))
     = if Nat.eqb a b then (if Nat.eqb b 0 then INR n else INR n / 2) else 0).
  { intros a b Hab Ha. rewrite E by auto.
    assert (Z : rsumn n (fun t => cos (INR 0 * (INR (2 * t + 1) * PI / INR n))) = INR n).
    { rewrite (rsumn_ext n _ (fun _ => 1)).
      - rewrite rsumn_const. ring.
      - intros; simpl INR at 1. rewrite Rmult_0_l. apply cos_0. }
    destruct (Nat.eqb_spec a b).
    - subst. rewrite Nat.sub_diag, Z. destruct (Nat.eqb_spec b 0).
      + subst. simpl (0 + 0)%nat. rewrite Z. lra.
      + rewrite sum_cos_odd by (unfold n; lia). lra.
    - rewrite !sum_cos_odd by (unfold n; lia). lra. }
  destruct (Nat.le_ge_cases k m).
  - apply D; auto.
  - rewrite (rsumn_ext n _ (fun t => cos (INR k * (INR (2 * t + 1) * PI / INR n)) * cos (INR m * (INR (2 * t + 1) * PI / INR n))))
      by (intros; ring).
    rewrite D by auto. rewrite Nat.eqb_sym. destruct (Nat.eqb_spec m k); subst; auto.
Qed.

(** ** integrals *)

(** integral of cos(k x) sin x over [0, pi] *)
Definition wcos (k : nat) : R := if Nat.even k then 2 / (1 - INR k * INR k) else 0.

Lemma cos_nat_PI : forall k, cos (INR k * PI) = if Nat.even k then 1 else -1.
Proof.
  induction k.
  - simpl. rewrite Rmult_0_l. apply cos_0.
  - rewrite S_INR. replace ((INR k + 1) * PI) with (INR k * PI + PI) by ring.
    rewrite neg_cos, IHk. rewrite Nat.even_succ, <- Nat.negb_even. destruct (Nat.even k); simpl; ring.
Qed.

Lemma is_RInt_cos_sin : forall k, is_RInt (fun x => cos (INR k * x) * sin x) 0 PI (wcos k).
Proof.
  intros k. destruct (Nat.eq_dec k 1) as [->|K].
  - unfold wcos; simpl.
    apply is_RInt_ext with (fun x => cos x * sin x).
    { intros. rewrite Rmult_1_l. reflexivity. }
    replace 0 with (minus ((sin PI) ^ 2 / 2) ((sin 0) ^ 2 / 2)) at 2.
    2:{ rewrite sin_PI, sin_0. unfold minus, plus, opp; simpl. field. }
    apply (is_RInt_derive (fun x => (sin x) ^ 2 / 2) (fun x => cos x * sin x)).
    + intros x _. auto_derive; auto. field.
    + intros x _. apply (ex_derive_continuous (fun x => cos x * sin x)). auto_derive; auto.
  - assert (K1 : INR k - 1 <> 0).
    { intros E. apply K. apply INR_eq. simpl. lra. }
    assert (K2 : INR k + 1 <> 0) by (generalize (pos_INR k); lra).
    set (F := fun x => cos ((INR k - 1) * x) / (2 * (INR k - 1)) - cos ((INR k + 1) * x) / (2 * (INR k + 1))).
    replace (wcos k) with (minus (F PI) (F 0)).
    + apply (is_RInt_derive F (fun x => cos (INR k * x) * sin x)).
      * intros x _. unfold F. auto_derive; auto.
        replace ((INR k - 1) * x) with (INR k * x - x) by ring.
        replace ((INR k + 1) * x) with (INR k * x + x) by ring.
        rewrite sin_plus, sin_minus. field. split; auto.
      * intros x _. apply (ex_derive_continuous (fun x => cos (INR k * x) * sin x)). auto_derive; auto.
    + unfold F, minus, plus, opp; simpl. rewrite !Rmult_0_r, cos_0.
      replace ((INR k - 1) * PI) with (INR k * PI - PI) by ring.
      replace ((INR k + 1) * PI) with (INR k * PI + PI) by ring.
      rewrite neg_cos. replace (cos (INR k * PI - PI)) with (- cos (INR k * PI)).
      2:{ rewrite cos_minus, cos_PI, sin_PI. ring. }
      rewrite cos_nat_PI. unfold wcos.
      assert (1 - INR k * INR k <> 0) by (replace (1 - INR k * INR k) with (- ((INR k - 1) * (INR k + 1))) by ring; apply Ropp_neq_0_compat, Rmult_integral_contrapositive; split; auto).
      destruct (Nat.even k); field; repeat split; auto.
Qed.

Lemma is_RInt_cos_circle : forall m, (0 < m)%nat -> is_RInt (fun x => cos (INR m * x)) 0 (2 * PI) 0.
Proof.
  intros m H. assert (INR m <> 0) by (apply not_0_INR; lia).
  replace 0 with (minus (sin (INR m * (2 * PI)) / INR m) (sin (INR m * 0) / INR m)) at 2.
  2:{ replace (INR m * (2 * PI)) with (2 * PI * INR m) by ring.
      rewrite sin_2PI_nat, Rmult_0_r, sin_0. unfold minus, plus, opp; simpl. field; auto. }
  apply (is_RInt_derive (fun x => sin (INR m * x) / INR m) (fun x => cos (INR m * x))).
  - intros x _. auto_derive; auto. field; auto.
  - intros x _. apply (ex_derive_continuous (fun x => cos (INR m * x))). auto_derive; auto.
Qed.
Lemma is_RInt_sin_circle : forall m, (0 < m)%nat -> is_RInt (fun x => sin (INR m * x)) 0 (2 * PI) 0.
Proof.
  intros m H. assert (INR m <> 0) by (apply not_0_INR; lia).
  replace 0 with (minus (- cos (INR m * (2 * PI)) / INR m) (- cos (INR m * 0) / INR m)) at 2.
  2:{ replace (INR m * (2 * PI)) with (2 * PI * INR m) by ring.
      rewrite cos_2PI_nat, Rmult_0_r, cos_0. unfold minus, plus, opp; simpl. field; auto. }
  apply (is_RInt_derive (fun x => - cos (INR m * x) / INR m) (fun x => sin (INR m * x))).
  - intros x _. auto_derive; auto. field; auto.
  - intros x _. apply (ex_derive_continuous (fun x => sin (INR m * x))). auto_derive; auto.
Qed.
