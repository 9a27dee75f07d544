(** Lemmas for C71. *)
From Coq Require Import List ZArith Lia Bool Reals Lra.
From Verif Require Import PyBase McmcSpec TuneSpec McmcProof.
Import ListNotations.
Open Scope R_scope.

(** ** sums over a, ..., a + n - 1 *)
Fixpoint sf (f : nat -> R) (a n : nat) : R := match n with O => 0 | S n => f a + sf f (S a) n end.

Lemma sf_le : forall f g n a, (forall i, (a <= i < a + n)%nat -> f i <= g i) -> sf f a n <= sf g a n.
Proof.
  intros f g n; induction n as [|n IH]; intros a H; simpl; [lra|].
  apply Rplus_le_compat; [apply H; lia|apply IH; intros i Hi; apply H; lia].
Qed.
Lemma sf_scal : forall c f n a, sf (fun i => c * f i) a n = c * sf f a n.
Proof. intros c f n; induction n as [|n IH]; intros a; simpl; [ring|rewrite IH; ring]. Qed.
Lemma sf_plus : forall f g n a, sf (fun i => f i + g i) a n = sf f a n + sf g a n.
Proof. intros f g n; induction n as [|n IH]; intros a; simpl; [ring|rewrite IH; ring]. Qed.
Lemma sf_app : forall f m n a, sf f a (m + n) = sf f a m + sf f (a + m) n.
Proof.
  intros f m; induction m as [|m IH]; intros n a; simpl; [rewrite Nat.add_0_r; ring|].
  rewrite IH. replace (S a + m)%nat with (a + S m)%nat by lia. ring.
Qed.
Lemma sf_tele : forall h n a, sf (fun i => h (S i) - h i) a n = h (a + n)%nat - h a.
Proof.
  intros h n; induction n as [|n IH]; intros a; simpl; [rewrite Nat.add_0_r; ring|].
  rewrite IH. replace (S a + n)%nat with (a + S n)%nat by lia. ring.
Qed.
Lemma sf_nonneg : forall f n a, (forall i, 0 <= f i) -> 0 <= sf f a n.
Proof. intros f n; induction n as [|n IH]; intros a H; simpl; [lra|]. generalize (H a) (IH (S a) H). lra. Qed.

(** ** the weights *)
Definition wt (i : nat) : R := Rpower (INR i + 1) (- (3 / 4)).
Definition wi (i : nat) : R := Rpower (INR i + 1) (3 / 4).

Lemma wt_pos : forall i, 0 < wt i.
Proof. intros i. apply exp_pos. Qed.
Lemma wt_le1 : forall i, wt i <= 1.
Proof. intros i. apply (rpow_le1 (INR i + 1)). generalize (pos_INR i); lra. Qed.
Lemma wt_wi : forall i, wi i * wt i = 1.
Proof.
  intros i. unfold wi, wt. rewrite <- Rpower_plus. replace (3 / 4 + - (3 / 4)) with 0 by lra.
  apply Rpower_O. generalize (pos_INR i); lra.
Qed.
Lemma wi_mono : forall i, wi i <= wi (S i).
Proof. intros i. unfold wi. rewrite S_INR. apply Rle_Rpower_l; [lra|]. generalize (pos_INR i); lra. Qed.
Lemma wi_pos : forall i, 0 < wi i.
Proof. intros i. apply exp_pos. Qed.

(** summation by parts *)
Lemma abel : forall b Cc n a,
  (forall j, (j <= n)%nat -> sf (fun i => b i * wt i) (a + j) (S n - j) <= Cc) ->
  sf b a (S n) <= wi a * sf (fun i => b i * wt i) a (S n) + Cc * (wi (a + n) - wi a).
Proof.
  intros b Cc n; induction n as [|n IH]; intros a H.
  - rewrite Nat.add_0_r. simpl. replace (wi a * (b a * wt a + 0)) with (b a * (wi a * wt a)) by ring. rewrite wt_wi. lra.
  - assert (E : sf b (S a) (S n) <= wi (S a) * sf (fun i => b i * wt i) (S a) (S n) + Cc * (wi (S a + n) - wi (S a))).
    { apply IH. intros j Hj. replace (S a + j)%nat with (a + S j)%nat by lia. apply (H (S j)). lia. }
    assert (T : sf (fun i => b i * wt i) (S a) (S n) <= Cc).
    { replace (S a) with (a + 1)%nat by lia. apply (H 1%nat). lia. }
    replace (sf b a (S (S n))) with (b a + sf b (S a) (S n)) by reflexivity.
    replace (sf (fun i => b i * wt i) a (S (S n))) with (b a * wt a + sf (fun i => b i * wt i) (S a) (S n)) by reflexivity.
    replace (a + S n)%nat with (S a + n)%nat by lia.
    set (t := sf (fun i => b i * wt i) (S a) (S n)) in *. clearbody t. set (s := sf b (S a) (S n)) in *. clearbody s.
    assert (M := wi_mono a). assert (W := wt_wi a).
    assert (P : (wi (S a) - wi a) * t <= (wi (S a) - wi a) * Cc) by (apply Rmult_le_compat_l; lra).
    replace (wi a * (b a * wt a + t)) with (b a * (wi a * wt a) + wi a * t) by ring. rewrite W. lra.
Qed.

Lemma abel_bound : forall b Cc n a,
  (forall j, (j <= n)%nat -> sf (fun i => b i * wt i) (a + j) (S n - j) <= Cc) ->
  sf b a (S n) <= Cc * wi (a + n).
Proof.
  intros b Cc n a H. apply Rle_trans with (1 := abel b Cc n a H).
  assert (T := H 0%nat ltac:(lia)). rewrite Nat.add_0_r, Nat.sub_0_r in T.
  assert (P := Rmult_le_compat_l (wi a) _ _ (Rlt_le _ _ (wi_pos a)) T). lra.
Qed.

(** ** the sum of the squares of the weights *)
Lemma wt_sq : forall i, wt i * wt i = / (sqrt (INR i + 1) * (INR i + 1)).
Proof.
  intros i. assert (P := pos_INR i). unfold wt. rewrite <- Rpower_plus.
  replace (- (3 / 4) + - (3 / 4)) with (- (1 / 2 + 1)) by lra. rewrite Rpower_Ropp, Rpower_plus, Rpower_1 by lra.
  f_equal. f_equal. rewrite <- Rpower_sqrt by lra. f_equal. lra.
Qed.

Lemma wt_sq_sum0 : forall n, sf (fun i => wt i * wt i) 0 (S n) <= 3 - 2 / sqrt (INR n + 1).
Proof.
  intros n; induction n as [|n IH].
  - simpl sf. rewrite wt_sq. simpl INR. replace (0 + 1) with 1 by ring. rewrite sqrt_1. lra.
  - replace (S (S n)) with (S n + 1)%nat by lia. rewrite sf_app. simpl (sf _ (0 + S n) 1).
    rewrite wt_sq. rewrite S_INR. assert (P := pos_INR n).
    set (s := sqrt (INR n + 1)) in *. set (t := sqrt (INR n + 1 + 1)) in *.
    assert (Hs : s * s = INR n + 1) by (apply sqrt_sqrt; lra).
    assert (Ht : t * t = INR n + 1 + 1) by (apply sqrt_sqrt; lra).
    assert (s0 : 0 < s) by (apply sqrt_lt_R0; lra). assert (t0 : 0 < t) by (apply sqrt_lt_R0; lra).
    assert (st : s < t) by (apply sqrt_lt_1; lra).
    rewrite <- Ht.
    enough (/ (t * (t * t)) <= 2 / s - 2 / t) by lra.
    replace (2 / s - 2 / t) with (2 * (t - s) / (s * t)) by (field; lra).
    replace (t - s) with (/ (s + t)).
    2:{ apply Rmult_eq_reg_l with (s + t); [|lra]. rewrite Rinv_r by lra. nra. }
    replace (2 * / (s + t) / (s * t)) with (/ ((s + t) / 2 * (s * t))) by (field; lra).
    apply Rinv_le_contravar.
    + repeat apply Rmult_lt_0_compat; lra.
    + assert (A : (s + t) / 2 <= t) by lra. assert (B : s * t <= t * t) by (apply Rmult_le_compat_r; lra).
      apply Rmult_le_compat; try lra. apply Rlt_le, Rmult_lt_0_compat; lra.
Qed.

Lemma wt_sq_sum : forall n a, sf (fun i => wt i * wt i) a n <= 3.
Proof.
  intros n a. assert (Q : forall i, 0 <= wt i * wt i) by (intros i; generalize (wt_pos i); nra).
  assert (E : sf (fun i => wt i * wt i) 0 (S (a + n)) <= 3).
  { apply Rle_trans with (1 := wt_sq_sum0 _). assert (0 < 2 / sqrt (INR (a + n) + 1)); [|lra].
    apply Rdiv_lt_0_compat; [lra|]. apply sqrt_lt_R0. generalize (pos_INR (a + n)); lra. }
  replace (S (a + n)) with (a + n + 1)%nat in E by lia. rewrite !sf_app in E. simpl (0 + a)%nat in E.
  assert (A := sf_nonneg _ a 0%nat Q). assert (B := sf_nonneg _ 1%nat (0 + (a + n))%nat Q). lra.
Qed.

(** ** the sum of the weights *)
Lemma wt_sum : forall n a, 4 * (Rpower (INR (a + n) + 1) (1 / 4) - Rpower (INR a + 1) (1 / 4)) <= sf wt a n.
Proof.
  intros n a. rewrite <- (sf_tele (fun i => Rpower (INR i + 1) (1 / 4))), <- sf_scal.
  apply sf_le. intros i _. rewrite S_INR. assert (P := pos_INR i).
  set (p := Rpower (INR i + 1) (1 / 4)). set (r := Rpower (INR i + 1 + 1) (1 / 4)).
  assert (p0 : 0 < p) by apply exp_pos.
  assert (pr : p <= r) by (apply Rle_Rpower_l; lra).
  assert (Q4 : forall x, 0 < x -> Rpower x (1 / 4) ^ 4 = x).
  { intros x X. rewrite <- Rpower_pow by apply exp_pos. rewrite Rpower_mult.
    replace (1 / 4 * INR 4) with 1 by (simpl; lra). apply Rpower_1, X. }
  assert (P4 : p ^ 4 = INR i + 1) by (apply Q4; lra).
  assert (R4 : r ^ 4 = INR i + 1 + 1) by (apply Q4; lra).
  assert (W : wt i = / p ^ 3).
  { unfold wt. rewrite Rpower_Ropp. f_equal. unfold p. rewrite <- Rpower_pow by apply exp_pos. rewrite Rpower_mult.
    f_equal. simpl; lra. }
  rewrite W. assert (p3 : 0 < p ^ 3) by (apply pow_lt; lra).
  apply Rmult_le_reg_r with (p ^ 3); [exact p3|]. rewrite Rinv_l by lra.
  assert (D : (r - p) * (r ^ 3 + r ^ 2 * p + r * p ^ 2 + p ^ 3) = 1) by (transitivity (r ^ 4 - p ^ 4); [ring|lra]).
  rewrite <- D. replace (4 * (r - p) * p ^ 3) with ((r - p) * (4 * p ^ 3)) by ring.
  apply Rmult_le_compat_l; [lra|].
  assert (pp : 0 <= p * p) by nra.
  assert (E2 : p ^ 2 <= r ^ 2) by (apply pow_incr; lra).
  assert (E3 : p ^ 3 <= r ^ 3) by (apply pow_incr; lra).
  assert (F1 : p ^ 3 <= r * p ^ 2) by (replace (p ^ 3) with (p * p ^ 2) by ring; apply Rmult_le_compat_r; [simpl; lra|lra]).
  assert (F2 : p ^ 3 <= r ^ 2 * p) by (replace (p ^ 3) with (p ^ 2 * p) by ring; apply Rmult_le_compat_r; lra).
  lra.
Qed.

(** ** logarithms *)
Lemma ln_le_sub1 : forall x, 0 < x -> ln x <= x - 1.
Proof.
  intros x X. rewrite <- (ln_exp (x - 1)). assert (E := exp_ineq1_le (x - 1)).
  destruct (Req_dec x (exp (x - 1))) as [<- | N]; [lra|]. apply Rlt_le, ln_increasing; lra.
Qed.
Lemma ln_mono : forall x y, 0 < x -> x <= y -> ln x <= ln y.
Proof. intros x y X [L | <-]; [apply Rlt_le, ln_increasing; auto|lra]. Qed.
Lemma ln_ge : forall x, - (1 / 2) <= x -> x - 2 * (x * x) <= ln (1 + x).
Proof.
  intros x X. assert (P : 0 < / (1 + x)) by (apply Rinv_0_lt_compat; lra).
  assert (E := ln_le_sub1 _ P). rewrite ln_Rinv in E by lra.
  assert (F : / (1 + x) - 1 <= - x + 2 * (x * x)); [|lra].
  apply Rmult_le_reg_r with (1 + x); [lra|]. rewrite Rmult_minus_distr_r, Rinv_l by lra.
  assert (0 <= x * x) by nra. nra.
Qed.

(** ln (10^8 / 2) < 37/2 *)
Lemma ln_band : ln (10 ^ 8 / 2) < 37 / 2.
Proof.
  rewrite <- (ln_exp (37 / 2)). apply ln_increasing; [simpl; lra|].
  replace (37 / 2) with (INR 296 * (1 / 16)) by (rewrite INR_IZR_INZ; simpl; lra).
  assert (E : 17 / 16 < exp (1 / 16)) by (assert (H := exp_ineq1 (1 / 16)); lra).
  assert (E2 : forall n, exp (INR n * (1 / 16)) = exp (1 / 16) ^ n).
  { intros n. rewrite <- Rpower_pow by apply exp_pos. unfold Rpower. rewrite ln_exp. reflexivity. }
  rewrite E2.
  apply Rlt_le_trans with ((17 / 16) ^ 296); [|apply pow_incr; lra].
  replace ((17 / 16) ^ 296) with (17 ^ 296 * / 16 ^ 296) by (unfold Rdiv; rewrite Rpow_mult_distr, pow_inv; reflexivity).
  apply Rmult_lt_reg_r with (16 ^ 296); [apply pow_lt; lra|]. rewrite Rmult_assoc, Rinv_l, Rmult_1_r by (apply pow_nonzero; lra).
  replace (10 ^ 8 / 2) with (IZR 50000000) by lra. rewrite !pow_IZR, <- mult_IZR. apply IZR_lt. vm_compute. reflexivity.
Qed.

(** ** histories *)
Section History.
Variables (lmda d0 : R) (accs : list Z) (ds : list R).
Hypothesis L0 : 0 < lmda.
Hypothesis H : tuned_history lmda d0 accs ds.
Notation st := (step_at (d0 :: ds)).
Let b (i : nat) : R := IZR (nth i accs 2%Z) - 1 / 2.

Lemma th_len : length ds = length accs.
Proof. exact (proj1 H). Qed.
Lemma th_b : forall i, (i < length accs)%nat ->
  (nth i accs 2%Z = 1%Z /\ b i = 1 / 2) \/ (nth i accs 2%Z = 0%Z /\ b i = - (1 / 2)).
Proof.
  intros i Hi. rewrite <- th_len in Hi. destruct (proj2 H i Hi) as (_ & [E | E] & _); unfold b; rewrite E; [left|right]; split; auto; lra.
Qed.
Lemma th_band : forall i, (i < length accs)%nat -> in_band lmda (st (S i)).
Proof. intros i Hi. rewrite <- th_len in Hi. exact (proj1 (proj2 H i Hi)). Qed.
Lemma th_pos : forall d, in_band lmda d -> 0 < d.
Proof. intros d (A & _). assert (0 < lmda / 10 ^ 8) by (simpl; lra). lra. Qed.
Lemma th_step : forall i, (i < length accs)%nat -> 0 < st i ->
  (st (S i) < lmda / 2 -> st i * (1 + b i * wt i) <= st (S i)) /\
  (lmda / 10 ^ 8 < st (S i) -> st (S i) <= st i * (1 + b i * wt i)).
Proof.
  intros i Hi P. assert (B := th_b i Hi). assert (Hi' := Hi). rewrite <- th_len in Hi'.
  destruct (proj2 H i Hi') as (_ & _ & E & _).
  change (nth i ds 0) with (st (S i)) in E. change (nth i (d0 :: ds) 0) with (st i) in E.
  assert (EB : INR (Z.to_nat (nth i accs 2%Z)) - 1 / 2 = b i).
  { unfold b. destruct B as [(-> & _) | (-> & _)]; simpl; lra. }
  unfold adapted in E. cbv zeta in E. rewrite EB in E. change (Rpower (INR i + 1) (- (3 / 4))) with (wt i) in E.
  replace (st i + st i * b i * wt i) with (st i * (1 + b i * wt i)) in E by ring.
  assert (LO : lmda / 10 ^ 8 < lmda / 2) by (simpl; lra). rewrite Rmin_left in E by lra.
  destruct (Rle_dec _ _) in E; [split; intros; lra|]. destruct (Rle_dec _ _) in E; split; intros; lra.
Qed.
Lemma th_x : forall i, (i < length accs)%nat -> - (1 / 2) <= b i * wt i <= 1 / 2 /\ (b i * wt i) * (b i * wt i) = wt i * wt i / 4.
Proof.
  intros i Hi. generalize (wt_pos i) (wt_le1 i). destruct (th_b i Hi) as [(_ & ->) | (_ & ->)]; intros; split; try split; try lra; field.
Qed.

Lemma th_sum_up : forall n a, (a + n <= length accs)%nat -> 0 < st a -> stays_below lmda (d0 :: ds) a (a + n) ->
  sf (fun i => b i * wt i) a n <= ln (st (a + n)) - ln (st a) + 1 / 2 * sf (fun i => wt i * wt i) a n.
Proof.
  intros n; induction n as [|n IH]; intros a Hn P SB.
  - rewrite Nat.add_0_r. simpl. lra.
  - assert (Hi : (a < length accs)%nat) by lia. assert (B := th_pos _ (th_band a Hi)).
    assert (T : sf (fun i => b i * wt i) (S a) n <= ln (st (S a + n)) - ln (st (S a)) + 1 / 2 * sf (fun i => wt i * wt i) (S a) n).
    { apply IH; [lia|exact B|]. intros i J. apply SB. lia. }
    replace (S a + n)%nat with (a + S n)%nat in T by lia.
    destruct (th_x a Hi) as ((X1 & X2) & X3). set (x := b a * wt a) in *.
    assert (U : ln (st a) + ln (1 + x) <= ln (st (S a))).
    { rewrite <- ln_mult by lra. assert (Q := proj1 (th_step a Hi P) (SB (S a) ltac:(lia))). fold x in Q.
      destruct Q as [Q | Q]; [apply Rlt_le, ln_increasing; [apply Rmult_lt_0_compat; lra|exact Q]|rewrite Q; lra]. }
    assert (V := ln_ge x X1). simpl sf. fold x. lra.
Qed.

Lemma th_sum_down : forall n a, (a + n <= length accs)%nat -> 0 < st a -> stays_above lmda (d0 :: ds) a (a + n) ->
  ln (st (a + n)) - ln (st a) <= sf (fun i => b i * wt i) a n.
Proof.
  intros n; induction n as [|n IH]; intros a Hn P SB.
  - rewrite Nat.add_0_r. simpl. lra.
  - assert (Hi : (a < length accs)%nat) by lia. assert (B := th_pos _ (th_band a Hi)).
    assert (T : ln (st (S a + n)) - ln (st (S a)) <= sf (fun i => b i * wt i) (S a) n).
    { apply IH; [lia|exact B|]. intros i J. apply SB. lia. }
    replace (S a + n)%nat with (a + S n)%nat in T by lia.
    destruct (th_x a Hi) as ((X1 & X2) & X3). set (x := b a * wt a) in *.
    assert (U : ln (st (S a)) <= ln (st a) + ln (1 + x)).
    { rewrite <- ln_mult by lra. assert (Q := proj2 (th_step a Hi P) (SB (S a) ltac:(lia))). fold x in Q.
      destruct Q as [Q | Q]; [apply Rlt_le, ln_increasing; [exact B|exact Q]|rewrite Q; lra]. }
    assert (V := ln_le_sub1 (1 + x) ltac:(lra)). simpl sf. fold x. lra.
Qed.

(** step sizes of [a, a + n] between m and M *)
Lemma th_up : forall m M n a, (a + n <= length accs)%nat -> 0 < m -> (forall i, (a <= i <= a + n)%nat -> m <= st i <= M) ->
  stays_below lmda (d0 :: ds) a (a + n) -> forall j, (j <= n)%nat ->
  sf (fun i => b i * wt i) (a + j) (n - j) <= ln (M / m) + 3 / 2.
Proof.
  intros m M n a Hn P RG SB j Hj. assert (Pj := RG (a + j)%nat ltac:(lia)). assert (Pn := RG (a + n)%nat ltac:(lia)).
  assert (E := th_sum_up (n - j) (a + j) ltac:(lia) ltac:(lra)).
  replace (a + j + (n - j))%nat with (a + n)%nat in E by lia.
  assert (E' := E ltac:(intros i Hi; apply SB; lia)). assert (Q := wt_sq_sum (n - j) (a + j)).
  assert (A : ln (st (a + n)) <= ln M) by (apply ln_mono; lra).
  assert (B : ln m <= ln (st (a + j))) by (apply ln_mono; lra).
  unfold Rdiv at 1. rewrite ln_mult, ln_Rinv; try lra. apply Rinv_0_lt_compat; lra.
Qed.
Lemma th_down : forall m M n a, (a + n <= length accs)%nat -> 0 < m -> (forall i, (a <= i <= a + n)%nat -> m <= st i <= M) ->
  stays_above lmda (d0 :: ds) a (a + n) -> forall j, (j <= n)%nat ->
  - ln (M / m) <= sf (fun i => b i * wt i) (a + j) (n - j).
Proof.
  intros m M n a Hn P RG SB j Hj. assert (Pj := RG (a + j)%nat ltac:(lia)). assert (Pn := RG (a + n)%nat ltac:(lia)).
  assert (E := th_sum_down (n - j) (a + j) ltac:(lia) ltac:(lra)).
  replace (a + j + (n - j))%nat with (a + n)%nat in E by lia.
  assert (E' := E ltac:(intros i Hi; apply SB; lia)).
  assert (A : ln (st (a + j)) <= ln M) by (apply ln_mono; lra).
  assert (B : ln m <= ln (st (a + n))) by (apply ln_mono; lra).
  unfold Rdiv. rewrite ln_mult, ln_Rinv; try lra. apply Rinv_0_lt_compat; lra.
Qed.

(** counting *)
Lemma th_count : forall n a, (a + n <= length accs)%nat -> sf b a n = INR (accepted_in accs a (a + n)) - INR n / 2.
Proof.
  intros n; induction n as [|n IH]; intros a Hn.
  - unfold accepted_in. rewrite Nat.add_0_r, Nat.sub_diag. simpl. lra.
  - simpl sf. rewrite IH by lia. unfold accepted_in. replace (S a + n - S a)%nat with n by lia. replace (a + S n - a)%nat with (S n) by lia.
    assert (Hi : (a < length accs)%nat) by lia.
    assert (E : skipn a accs = nth a accs 2%Z :: skipn (S a) accs).
    { clear - Hi. revert a Hi. induction accs as [|z l IH]; intros a Hi; [simpl in Hi; lia|].
      destruct a as [|a]; [reflexivity|]. simpl in Hi. simpl. rewrite (IH a) by lia. reflexivity. }
    rewrite E. simpl firstn. simpl count_occ. rewrite S_INR.
    destruct (th_b a Hi) as [(E1 & ->) | (E1 & ->)]; rewrite E1; destruct (Z.eq_dec _ _) as [Q | Q]; try discriminate Q; try (exfalso; apply Q; reflexivity);
      rewrite ?S_INR; lra.
Qed.

Lemma wi_pow34 : forall a n, wi (a + n) = pow34 (a + S n).
Proof. intros a n. unfold wi, pow34. rewrite !plus_INR, S_INR. f_equal. ring. Qed.

Lemma th_few : forall m M a k, (a < k <= length accs)%nat -> 0 < m -> (forall i, (a <= i <= k)%nat -> m <= st i <= M) ->
  stays_below lmda (d0 :: ds) a k ->
  INR (accepted_in accs a k) - INR (k - a) / 2 <= (ln (M / m) + 3 / 2) * pow34 k.
Proof.
  intros m M a k Hk P RG SB. destruct (k - a)%nat as [|n] eqn:E; [lia|]. assert (Ek : k = (a + S n)%nat) by lia.
  assert (Q := th_count (S n) a ltac:(lia)). rewrite <- Ek in Q. rewrite <- Q.
  rewrite Ek, <- wi_pow34. apply abel_bound. intros j Hj. apply (th_up m M); auto; try lia.
  - intros i Hi. apply RG. lia.
  - rewrite <- Ek. exact SB.
Qed.
Lemma sf_opp_w : forall n a, sf (fun i => - b i * wt i) a n = - sf (fun i => b i * wt i) a n.
Proof. intros n; induction n as [|n IH]; intros a; simpl; [ring|rewrite IH; ring]. Qed.
Lemma sf_opp : forall n a, sf (fun i => - b i) a n = - sf b a n.
Proof. intros n; induction n as [|n IH]; intros a; simpl; [ring|rewrite IH; ring]. Qed.
Lemma th_many : forall m M a k, (a < k <= length accs)%nat -> 0 < m -> (forall i, (a <= i <= k)%nat -> m <= st i <= M) ->
  stays_above lmda (d0 :: ds) a k ->
  INR (k - a) / 2 - INR (accepted_in accs a k) <= ln (M / m) * pow34 k.
Proof.
  intros m M a k Hk P RG SB. destruct (k - a)%nat as [|n] eqn:E; [lia|]. assert (Ek : k = (a + S n)%nat) by lia.
  assert (Q := th_count (S n) a ltac:(lia)). rewrite <- Ek in Q.
  replace (INR (S n) / 2 - INR (accepted_in accs a k)) with (- sf b a (S n)) by lra.
  rewrite Ek, <- wi_pow34, <- sf_opp. apply abel_bound. intros j Hj. rewrite sf_opp_w.
  assert (D := th_down m M (S n) a ltac:(lia) P ltac:(intros i Hi; apply RG; lia) ltac:(rewrite <- Ek; exact SB) j ltac:(lia)). lra.
Qed.

(** the whole band *)
Lemma th_inband : forall a, (1 <= a)%nat \/ in_band lmda d0 -> forall i, (a <= i <= length accs)%nat -> in_band lmda (st i).
Proof.
  intros a A i Hi. destruct i as [|i]; [destruct A as [A | A]; [lia|exact A]|]. apply th_band. lia.
Qed.
Lemma band_ratio : lmda / 2 / (lmda / 10 ^ 8) = 10 ^ 8 / 2.
Proof. field. lra. Qed.
Lemma pow34_nonneg : forall k, 0 <= pow34 k.
Proof. intros k. apply Rlt_le, exp_pos. Qed.
Lemma lo_pos : 0 < lmda / 10 ^ 8.
Proof. simpl; lra. Qed.

Lemma th_few_band : forall a k, (a < k <= length accs)%nat -> (1 <= a)%nat \/ in_band lmda d0 -> stays_below lmda (d0 :: ds) a k ->
  INR (accepted_in accs a k) - INR (k - a) / 2 <= 20 * pow34 k.
Proof.
  intros a k Hk A SB. apply Rle_trans with (1 := th_few (lmda / 10 ^ 8) (lmda / 2) a k Hk lo_pos (fun i Hi => th_inband a A i ltac:(lia)) SB).
  apply Rmult_le_compat_r; [apply pow34_nonneg|]. rewrite band_ratio. generalize ln_band. lra.
Qed.
Lemma th_many_band : forall a k, (a < k <= length accs)%nat -> (1 <= a)%nat \/ in_band lmda d0 -> stays_above lmda (d0 :: ds) a k ->
  INR (k - a) / 2 - INR (accepted_in accs a k) <= 20 * pow34 k.
Proof.
  intros a k Hk A SB. apply Rle_trans with (1 := th_many (lmda / 10 ^ 8) (lmda / 2) a k Hk lo_pos (fun i Hi => th_inband a A i ltac:(lia)) SB).
  apply Rmult_le_compat_r; [apply pow34_nonneg|]. rewrite band_ratio. generalize ln_band. lra.
Qed.

(** runs of acceptances and of rejections *)
Lemma th_mono : forall i, (i < length accs)%nat -> in_band lmda (st i) ->
  (nth i accs 2%Z = 1%Z -> st i <= st (S i)) /\ (nth i accs 2%Z = 0%Z -> st (S i) <= st i).
Proof. intros i Hi B. rewrite <- th_len in Hi. destruct (proj2 H i Hi) as (_ & _ & _ & M). destruct (M B) as (M1 & M2 & _). split; assumption. Qed.

Lemma th_all : forall a k c, (a < k <= length accs)%nat -> (1 <= a)%nat \/ in_band lmda d0 ->
  (forall i, (a <= i < k)%nat -> nth i accs 2%Z = c) ->
  (Rpower (INR a + 1) (1 / 4) + 10) ^ 4 <= INR k + 1 ->
  (c = 1%Z -> st k = lmda / 2) /\ (c = 0%Z -> st k = lmda / 10 ^ 8).
Proof.
  intros a k c Hk A AC BIG.
  assert (IB := th_inband a A).
  assert (W := wt_sum (k - a) a). replace (a + (k - a))%nat with k in W by lia.
  assert (ROOT : 10 <= Rpower (INR k + 1) (1 / 4) - Rpower (INR a + 1) (1 / 4)).
  { set (p := Rpower (INR a + 1) (1 / 4)) in *. assert (p0 : 0 < p) by apply exp_pos.
    enough (p + 10 <= Rpower (INR k + 1) (1 / 4)) by lra.
    replace (p + 10) with (Rpower ((p + 10) ^ 4) (1 / 4)).
    - apply Rle_Rpower_l; [lra|]. split; [apply pow_lt; lra|exact BIG].
    - rewrite <- Rpower_pow by lra. rewrite Rpower_mult. replace (INR 4 * (1 / 4)) with 1 by (simpl; lra). apply Rpower_1. lra. }
  assert (LB := ln_band). rewrite <- band_ratio in LB. split; intros ->.
  - destruct (Rlt_dec (st k) (lmda / 2)) as [LT | GE]; [exfalso|generalize (proj2 (IB k ltac:(lia))); lra].
    assert (SB : stays_below lmda (d0 :: ds) a k).
    { assert (Q : forall n i, (i + n = k)%nat -> (a <= i)%nat -> st i < lmda / 2).
      { intros n; induction n as [|n IHn]; intros i Hi Ha; [replace i with k by lia; exact LT|].
        assert (U := proj1 (th_mono i ltac:(lia) (IB i ltac:(lia))) (AC i ltac:(lia))).
        assert (V := IHn (S i) ltac:(lia) ltac:(lia)). lra. }
      intros i Hi. apply (Q (k - i)%nat); lia. }
    assert (T := th_up (lmda / 10 ^ 8) (lmda / 2) (k - a) a ltac:(lia) lo_pos
                   ltac:(intros i Hi; apply IB; lia) ltac:(replace (a + (k - a))%nat with k by lia; exact SB) 0%nat ltac:(lia)).
    rewrite Nat.add_0_r, Nat.sub_0_r in T.
    assert (E : 1 / 2 * sf wt a (k - a) <= sf (fun i => b i * wt i) a (k - a)).
    { rewrite <- sf_scal. apply sf_le. intros i Hi. unfold b. rewrite (AC i ltac:(lia)). right. field. }
    lra.
  - destruct (Rlt_dec (lmda / 10 ^ 8) (st k)) as [LT | GE]; [exfalso|generalize (proj1 (IB k ltac:(lia))); lra].
    assert (SB : stays_above lmda (d0 :: ds) a k).
    { assert (Q : forall n i, (i + n = k)%nat -> (a <= i)%nat -> lmda / 10 ^ 8 < st i).
      { intros n; induction n as [|n IHn]; intros i Hi Ha; [replace i with k by lia; exact LT|].
        assert (U := proj2 (th_mono i ltac:(lia) (IB i ltac:(lia))) (AC i ltac:(lia))).
        assert (V := IHn (S i) ltac:(lia) ltac:(lia)). lra. }
      intros i Hi. apply (Q (k - i)%nat); lia. }
    assert (T := th_down (lmda / 10 ^ 8) (lmda / 2) (k - a) a ltac:(lia) lo_pos
                   ltac:(intros i Hi; apply IB; lia) ltac:(replace (a + (k - a))%nat with k by lia; exact SB) 0%nat ltac:(lia)).
    rewrite Nat.add_0_r, Nat.sub_0_r in T.
    assert (E : sf (fun i => b i * wt i) a (k - a) <= - (1 / 2) * sf wt a (k - a)).
    { rewrite <- sf_scal. apply sf_le. intros i Hi. unfold b. rewrite (AC i ltac:(lia)). right. field. }
    lra.
Qed.
End History.

(** ** rates *)
Lemma pow34_small : forall e k, 0 < e -> (40 / e) ^ 4 <= INR k -> 20 * pow34 k <= e / 2 * INR k.
Proof.
  intros e k E K. assert (Q0 : 0 < 40 / e) by (apply Rdiv_lt_0_compat; lra).
  assert (K0 : 0 < INR k) by (apply Rlt_le_trans with (2 := K), pow_lt; exact Q0).
  set (p := Rpower (INR k) (1 / 4)). assert (p0 : 0 < p) by apply exp_pos.
  assert (P4 : p ^ 4 = INR k).
  { unfold p. rewrite <- Rpower_pow by apply exp_pos. rewrite Rpower_mult. replace (1 / 4 * INR 4) with 1 by (simpl; lra). apply Rpower_1, K0. }
  assert (P3 : pow34 k = p ^ 3).
  { unfold pow34, p. rewrite <- Rpower_pow by apply exp_pos. rewrite Rpower_mult. f_equal. simpl; lra. }
  assert (PG : 40 / e <= p).
  { replace (40 / e) with (Rpower ((40 / e) ^ 4) (1 / 4)).
    - apply Rle_Rpower_l; [lra|]. split; [apply pow_lt; lra|exact K].
    - rewrite <- Rpower_pow by lra. rewrite Rpower_mult. replace (INR 4 * (1 / 4)) with 1 by (simpl; lra). apply Rpower_1. lra. }
  rewrite P3, <- P4. replace (e / 2 * p ^ 4) with (e / 2 * p * p ^ 3) by ring.
  apply Rmult_le_compat_r; [apply Rlt_le, pow_lt; lra|].
  replace 20 with (e / 2 * (40 / e)) by (field; lra). apply Rmult_le_compat_l; lra.
Qed.

Lemma accepted_split : forall accs a k, (a <= k)%nat ->
  accepted_in accs 0 k = (accepted_in accs 0 a + accepted_in accs a k)%nat.
Proof.
  intros accs a k Hk. unfold accepted_in. rewrite !Nat.sub_0_r. simpl skipn.
  rewrite <- count_occ_app. f_equal. rewrite <- (firstn_skipn a (firstn k accs)) at 1. f_equal.
  - rewrite firstn_firstn. f_equal. lia.
  - rewrite skipn_firstn_comm. reflexivity.
Qed.
Lemma accepted_le : forall accs a, (accepted_in accs 0 a <= a)%nat.
Proof.
  intros accs a. unfold accepted_in. apply Nat.le_trans with (1 := count_occ_bound _ _ _). rewrite firstn_length. lia.
Qed.
