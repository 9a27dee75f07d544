From Coq Require Import List ZArith Lia Bool Reals Lra Psatz Arith.
From Coquelicot Require Import Coquelicot.
From Verif Require Import PyBase CVec TrigSum Quad QuadSpec.
Import ListNotations.
Open Scope R_scope.

(** ** Closed form of weights_theta *)

(** even (folded) part of the ring weight, without normalisation *)
Definition ring_even (L : nat) (th : R) : R :=
  wcos 0 + rsumn (L - 1) (fun i => 2 * wcos (S i) * cos (INR (S i) * th)).
Definition ring_full (L : nat) (th : R) : R :=
  ring_even L th + (if Nat.eqb (L - 1) 0 then 0 else PI * sin th).

Lemma wcos_mw : forall j : nat, (j <> 1)%nat -> mw_weights (Z.of_nat j) = RtoC (wcos j).
Proof.
  intros j H. unfold mw_weights, wcos.
  destruct (Z.eqb_spec (Z.of_nat j) 1); [lia|]. destruct (Z.eqb_spec (Z.of_nat j) (-1)); [lia|].
  rewrite <- INR_IZR_INZ.
  destruct (Z.eqb_spec (Z.of_nat j mod 2) 0) as [E|E]; destruct (Nat.even j) eqn:Ev; auto.
  - exfalso. rewrite <- Nat.negb_odd in Ev. apply negb_false_iff, Nat.odd_spec in Ev.
    destruct Ev as [m ->]. rewrite Nat2Z.inj_add, Nat2Z.inj_mul in E. simpl Z.of_nat in E.
    rewrite Z.add_comm, Z.mul_comm, Z_mod_plus_full in E. discriminate.
  - exfalso. apply Nat.even_spec in Ev. destruct Ev as [m ->]. apply E.
    rewrite Nat2Z.inj_mul. simpl Z.of_nat. rewrite Z.mul_comm. apply Z_mod_mult.
Qed.
Lemma mw_weights_neg : forall m, mw_weights (- m) = if (m =? 1)%Z then (- mw_weights 1)%C else if (m =? -1)%Z then mw_weights 1 else mw_weights m.
Proof.
  intros m. unfold mw_weights.
  destruct (Z.eqb_spec m 1); [subst; simpl; reflexivity|].
  destruct (Z.eqb_spec m (-1)); [subst; simpl; reflexivity|].
  destruct (Z.eqb_spec (- m) 1); [lia|]. destruct (Z.eqb_spec (- m) (-1)); [lia|].
  replace ((- m) mod 2 =? 0)%Z with (m mod 2 =? 0)%Z.
  - rewrite opp_IZR. replace (- IZR m * - IZR m) with (IZR m * IZR m) by ring. reflexivity.
  - destruct (Z.eqb_spec (m mod 2) 0), (Z.eqb_spec ((- m) mod 2) 0); auto; exfalso.
    + apply n3. apply Z_mod_zero_opp_full; auto.
    + apply n3. replace m with (- - m)%Z by lia. apply Z_mod_zero_opp_full; auto.
Qed.
Lemma mw_weights_1 : mw_weights 1 = (0, PI / 2).
Proof.
  unfold mw_weights; simpl. apply C_ext; unfold Cdiv, Cinv, Cmult, RtoC, Ci; simpl; field.
Qed.

Lemma term_pos : forall (j : nat) th, Re (mw_weights (Z.of_nat j) * Cis (- (INR j * th)))%C
  = wcos j * cos (INR j * th) + (if Nat.eqb j 1 then PI / 2 * sin th else 0).
Proof.
  intros j th. destruct (Nat.eqb_spec j 1).
  - subst. change (Z.of_nat 1) with 1%Z. rewrite mw_weights_1. unfold wcos, Re, Cis; simpl.
    rewrite Rmult_1_l, sin_neg. field.
  - rewrite wcos_mw by auto. rewrite Re_scal. unfold Re, Cis; simpl. rewrite cos_neg. ring.
Qed.
Lemma term_neg : forall (j : nat) th, Re (mw_weights (- Z.of_nat j) * Cis (INR j * th))%C
  = wcos j * cos (INR j * th) + (if Nat.eqb j 1 then PI / 2 * sin th else 0).
Proof.
  intros j th. rewrite mw_weights_neg. destruct (Nat.eqb_spec j 1).
  - subst. change (Z.of_nat 1 =? 1)%Z with true. cbv iota. rewrite mw_weights_1.
    unfold wcos, Re, Cis; simpl. rewrite Rmult_1_l. field.
  - destruct (Z.eqb_spec (Z.of_nat j) 1); [lia|]. destruct (Z.eqb_spec (Z.of_nat j) (-1)); [lia|].
    rewrite wcos_mw by auto. rewrite Re_scal. unfold Re, Cis; simpl. ring.
Qed.

Lemma Cis_plus : forall a b, (Cis a * Cis b)%C = Cis (a + b).
Proof. intros; unfold Cis; apply C_ext; simpl; rewrite ?cos_plus, ?sin_plus; ring. Qed.
Lemma Cis_period : forall a k, Cis (a - 2 * PI * INR k) = Cis a.
Proof.
  intros; unfold Cis. rewrite <- (cos_period_nat (a - 2 * PI * INR k) k), <- (sin_period_nat (a - 2 * PI * INR k) k).
  replace (2 * PI * INR k + (a - 2 * PI * INR k)) with a by ring. reflexivity.
Qed.

Lemma zrange_sym_length : forall L, (1 <= L)%nat ->
  length (zrange (- (Z.of_nat L - 1)) (Z.of_nat L)) = (2 * L - 1)%nat.
Proof. intros; unfold zrange. rewrite map_length, seq_length. lia. Qed.

Section Closed.
Variable L : nat.
Hypothesis HL : (1 <= L)%nat.
Let n := (2 * L - 1)%nat.
Let wr := map (fun m => mw_weights m * Cis (- (IZR m * PI / IZR (2 * Z.of_nat L - 1))))%C
              (zrange (- (Z.of_nat L - 1)) (Z.of_nat L)).

Lemma IZR_n : IZR (2 * Z.of_nat L - 1) = INR n.
Proof. rewrite INR_IZR_INZ. f_equal. unfold n. lia. Qed.
Lemma n_pos : 0 < INR n. Proof. apply lt_0_INR; unfold n; lia. Qed.

Lemma wr_length : length wr = n.
Proof. unfold wr. rewrite map_length. apply zrange_sym_length; auto. Qed.
Lemma nth_wr : forall i, (i < n)%nat -> nth i wr (RtoC 0) =
  (mw_weights (Z.of_nat i - (Z.of_nat L - 1)) * Cis (- (IZR (Z.of_nat i - (Z.of_nat L - 1)) * PI / INR n)))%C.
Proof.
  intros i Hi. unfold wr. rewrite IZR_n.
  rewrite (nth_map_in _ _ _ _ 0%Z) by (rewrite zrange_sym_length; auto).
  assert (E : nth i (zrange (- (Z.of_nat L - 1)) (Z.of_nat L)) 0%Z = (Z.of_nat i - (Z.of_nat L - 1))%Z).
  { unfold zrange. rewrite (nth_map_in _ _ _ _ O) by (rewrite seq_length; unfold n in Hi; lia).
    rewrite seq_nth by (unfold n in Hi; lia). lia. }
  rewrite E. reflexivity.
Qed.
Lemma half_n : (n / 2 = L - 1)%nat.
Proof. unfold n. symmetry. apply Nat.div_unique with 1%nat; lia. Qed.
Lemma nth_shift_low : forall k, (k < L)%nat -> nth k (ifftshift wr) (RtoC 0) =
  (mw_weights (Z.of_nat k) * Cis (- (INR k * PI / INR n)))%C.
Proof.
  intros k Hk. unfold ifftshift. rewrite wr_length.
  rewrite (nth_map_in _ _ _ _ O) by (rewrite seq_length; unfold n; lia).
  rewrite seq_nth by (unfold n; lia). rewrite half_n, Nat.mod_small by (unfold n; lia).
  rewrite nth_wr by (unfold n; lia).
  replace (Z.of_nat (0 + k + (L - 1)) - (Z.of_nat L - 1))%Z with (Z.of_nat k) by lia.
  rewrite <- INR_IZR_INZ. reflexivity.
Qed.
Lemma nth_shift_high : forall j, (1 <= j <= L - 1)%nat -> nth (n - j) (ifftshift wr) (RtoC 0) =
  (mw_weights (- Z.of_nat j) * Cis (INR j * PI / INR n))%C.
Proof.
  intros j Hj. unfold ifftshift. rewrite wr_length.
  rewrite (nth_map_in _ _ _ _ O) by (rewrite seq_length; unfold n; lia).
  rewrite seq_nth by (unfold n; lia). rewrite half_n.
  replace (0 + (n - j) + (L - 1))%nat with ((L - 1 - j) + 1 * n)%nat by (unfold n; lia).
  rewrite Nat.mod_add by (unfold n; lia). rewrite Nat.mod_small by (unfold n; lia).
  rewrite nth_wr by (unfold n; lia).
  replace (Z.of_nat (L - 1 - j) - (Z.of_nat L - 1))%Z with (- Z.of_nat j)%Z by lia.
  rewrite opp_IZR, <- INR_IZR_INZ. f_equal. f_equal. field. generalize n_pos; lra.
Qed.
Lemma shift_length : length (ifftshift wr) = n.
Proof. unfold ifftshift. rewrite map_length, seq_length. apply wr_length. Qed.

Lemma fft_entry : forall t, (t < n)%nat ->
  Re (nth t (fft (ifftshift wr)) (RtoC 0)) = ring_full L (mw_theta L t).
Proof.
  intros t Ht. unfold fft. rewrite shift_length.
  rewrite (nth_map_in _ _ _ _ O) by (rewrite seq_length; auto). rewrite seq_nth by auto.
  change (0 + t)%nat with t.
  assert (N := n_pos).
  rewrite Re_csum, map_map.
  set (g := fun k => Re (nth k (ifftshift wr) (RtoC 0) * Cis (- (2 * PI * INR k * INR t / INR n)))%C).
  change (rsumn n g = ring_full L (mw_theta L t)).
  replace n with (L + (L - 1))%nat by (unfold n; lia). rewrite rsumn_add.
  replace L with (S (L - 1)) at 1 by lia. rewrite rsumn_shift.
  rewrite (rsumn_rev (L - 1) (fun i => g (L + i)%nat)).
  assert (Th : mw_theta L t = (2 * INR t + 1) * PI / INR n).
  { unfold mw_theta. fold n. rewrite plus_INR, mult_INR. simpl INR. reflexivity. }
  assert (G0 : forall k, (k < L)%nat -> g k = wcos k * cos (INR k * mw_theta L t) + (if Nat.eqb k 1 then PI / 2 * sin (mw_theta L t) else 0)).
  { intros k Hk. unfold g. rewrite nth_shift_low by auto. rewrite <- Cmult_assoc, Cis_plus.
    rewrite <- term_pos. rewrite Th. f_equal. f_equal. f_equal. field. lra. }
  assert (G1 : forall j, (1 <= j <= L - 1)%nat -> g (n - j)%nat = wcos j * cos (INR j * mw_theta L t) + (if Nat.eqb j 1 then PI / 2 * sin (mw_theta L t) else 0)).
  { intros j Hj. unfold g. rewrite nth_shift_high by auto. rewrite <- Cmult_assoc, Cis_plus.
    rewrite <- term_neg. rewrite Th. f_equal. f_equal.
    rewrite minus_INR by (unfold n; lia).
    replace (INR j * PI / INR n + - (2 * PI * (INR n - INR j) * INR t / INR n))
      with (INR j * ((2 * INR t + 1) * PI / INR n) - 2 * PI * INR t) by (field; lra).
    apply Cis_period. }
  rewrite (rsumn_ext (L - 1) (fun i => g (S i)) _ (fun i Hi => G0 (S i) ltac:(lia))).
  rewrite (rsumn_ext (L - 1) (fun i => g (L + (L - 1 - 1 - i))%nat)
    (fun i => wcos (S i) * cos (INR (S i) * mw_theta L t) + (if Nat.eqb (S i) 1 then PI / 2 * sin (mw_theta L t) else 0))).
  2:{ intros i Hi. replace (L + (L - 1 - 1 - i))%nat with (n - S i)%nat by (unfold n; lia). apply G1. lia. }
  rewrite G0 by lia. rewrite Rplus_assoc, <- rsumn_plus.
  unfold ring_full, ring_even. simpl (Nat.eqb 0 1). rewrite Rmult_0_l, cos_0.
  rewrite (rsumn_ext (L - 1) _ (fun i => 2 * wcos (S i) * cos (INR (S i) * mw_theta L t) + (if Nat.eqb i 0 then PI * sin (mw_theta L t) else 0))).
  2:{ intros i Hi. change (Nat.eqb (S i) 1) with (Nat.eqb i 0). destruct (Nat.eqb i 0); field. }
  rewrite rsumn_plus.
  assert (Z : rsumn (L - 1) (fun i => if Nat.eqb i 0 then PI * sin (mw_theta L t) else 0)
              = if Nat.eqb (L - 1) 0 then 0 else PI * sin (mw_theta L t)).
  { destruct (Nat.eqb_spec (L - 1) 0) as [E|E].
    - rewrite E. reflexivity.
    - rewrite (rsumn_single _ O); [reflexivity|lia|]. intros i _ Hi. destruct i; [congruence|reflexivity]. }
  rewrite Z. simpl INR. lra.
Qed.

Definition norm_c : R := 2 * PI / INR n ^ 2.

Lemma weights_theta_closed :
  weights_theta (Z.of_nat L) = Ok (map (fun t => norm_c * ring_full L (mw_theta L t)) (seq 0 n)).
Proof.
  unfold weights_theta. destruct (Z.ltb_spec (2 * Z.of_nat L - 1) 0); [lia|]. f_equal.
  fold wr. assert (LF : length (fft (ifftshift wr)) = n).
  { unfold fft. rewrite map_length, seq_length. apply shift_length. }
  apply nth_ext with (d := 0) (d' := 0).
  - rewrite !map_length, seq_length. auto.
  - rewrite map_length, LF. intros t Ht.
    rewrite (nth_map_in _ _ _ _ (RtoC 0)) by lia.
    rewrite (nth_map_in _ _ _ _ O) by (rewrite seq_length; auto). rewrite seq_nth by auto.
    change (0 + t)%nat with t. rewrite <- fft_entry by auto. rewrite IZR_n.
    assert (N := n_pos). unfold norm_c.
    set (z := nth t (fft (ifftshift wr)) (RtoC 0)). destruct z as [x y].
    unfold Re, Cdiv, Cmult, Cinv, RtoC; simpl. field. lra.
Qed.

(** ** the folded weights *)
Definition ring_weight (t : nat) : R :=
  if Nat.ltb t (L - 1) then 2 * norm_c * ring_even L (mw_theta L t)
  else norm_c * ring_even L (mw_theta L t).

Lemma mw_theta_mirror : forall t, (t < n)%nat -> mw_theta L (n - 1 - t) = 2 * PI - mw_theta L t.
Proof.
  intros t Ht. unfold mw_theta. fold n. assert (N := n_pos).
  replace (2 * (n - 1 - t) + 1)%nat with (2 * n - (2 * t + 1))%nat by lia.
  rewrite minus_INR by lia. rewrite (mult_INR 2 n). simpl (INR 2). field. lra.
Qed.
Lemma ring_even_mirror : forall th, ring_even L (2 * PI - th) = ring_even L th.
Proof.
  intros th. unfold ring_even. f_equal. apply rsumn_ext; intros i _. f_equal.
  replace (INR (S i) * (2 * PI - th)) with (2 * PI * INR (S i) + - (INR (S i) * th)) by ring.
  rewrite cos_period_nat, cos_neg. reflexivity.
Qed.
Lemma sin_mirror : forall th, sin (2 * PI - th) = - sin th.
Proof. intros. rewrite sin_minus, sin_2PI, cos_2PI. ring. Qed.

Lemma fold_weights_closed :
  fold_weights (Z.of_nat L) (map (fun t => norm_c * ring_full L (mw_theta L t)) (seq 0 n))
  = map ring_weight (seq 0 L).
Proof.
  unfold fold_weights.
  set (W := map (fun t => norm_c * ring_full L (mw_theta L t)) (seq 0 n)).
  assert (LW : length W = n) by (unfold W; rewrite map_length, seq_length; auto).
  assert (Q : py_slice W (Some 0%Z) (Some (Z.of_nat L)) = firstn L W).
  { unfold py_slice, slice_bound. rewrite LW. simpl.
    destruct (Z.ltb_spec (Z.of_nat L) 0); [lia|].
    replace (Z.min 0 (Z.of_nat n)) with 0%Z by lia. simpl. f_equal. unfold n. lia. }
  rewrite Q. assert (LQ : length (firstn L W) = L) by (rewrite firstn_length, LW; unfold n; lia).
  rewrite LQ. apply map_ext_in; intros i Hi. apply in_seq in Hi.
  assert (NW : forall t, (t < n)%nat -> nth t W 0 = norm_c * ring_full L (mw_theta L t)).
  { intros t Ht. unfold W. rewrite (nth_map_in _ _ _ _ O) by (rewrite seq_length; auto).
    rewrite seq_nth by auto. reflexivity. }
  replace (nth i (firstn L W) 0) with (nth i W 0).
  2:{ rewrite <- (firstn_skipn L W) at 1. rewrite app_nth1 by lia. reflexivity. }
  unfold ring_weight. rewrite NW by (unfold n; lia).
  destruct (Z.ltb_spec (Z.of_nat i) (Z.of_nat L - 1)), (Nat.ltb_spec i (L - 1)); try lia.
  - replace (Z.to_nat (2 * Z.of_nat L - 2 - Z.of_nat i)) with (n - 1 - i)%nat by (unfold n; lia).
    rewrite NW by (unfold n; lia). rewrite mw_theta_mirror by (unfold n; lia).
    unfold ring_full. rewrite ring_even_mirror, sin_mirror.
    destruct (Nat.eqb_spec (L - 1) 0); [lia|]. ring.
  - assert (i = (L - 1)%nat) by lia. subst i. unfold ring_full.
    destruct (Nat.eqb_spec (L - 1) 0); [ring|].
    replace (mw_theta L (L - 1)) with PI.
    + rewrite sin_PI. ring.
    + unfold mw_theta. fold n. replace (2 * (L - 1) + 1)%nat with n by (unfold n; lia).
      field. generalize n_pos; lra.
Qed.

Lemma map_weights_closed :
  mw_map_weights (Z.of_nat L) = Ok (flat_map (fun t => repeat (ring_weight t) n) (seq 0 L)).
Proof.
  unfold mw_map_weights. rewrite weights_theta_closed. cbn [rbind]. rewrite fold_weights_closed.
  f_equal. rewrite flat_map_concat_map. rewrite map_map. f_equal. apply map_ext; intros t.
  rewrite Rmult_1_r. f_equal. unfold n. lia.
Qed.

(** ** positivity *)
Lemma wcos_abs_sum : forall K,
  rsumn K (fun i => 2 * Rabs (wcos (S i))) <= if Nat.even K then 2 - 2 / (INR K + 1) else 2 - 2 / INR K.
Proof.
  induction K.
  - rewrite rsumn_0. simpl. lra.
  - rewrite rsumn_S, Nat.even_succ, <- Nat.negb_even.
    assert (P := pos_INR K). rewrite S_INR.
    set (A := rsumn K (fun i => 2 * Rabs (wcos (S i)))) in *.
    unfold wcos. rewrite Nat.even_succ, <- Nat.negb_even.
    destruct (Nat.even K) eqn:E; simpl negb; cbv iota; cbv iota in IHK.
    + rewrite Rabs_R0. lra.
    + assert (1 <= INR K).
      { replace 1 with (INR 1) by reflexivity. apply le_INR. destruct K; [discriminate|lia]. }
      rewrite S_INR. rewrite Rabs_left.
      * apply Rle_trans with (2 - 2 / INR K + 2 * - (2 / (1 - (INR K + 1) * (INR K + 1)))); [lra|].
        right. field. repeat split; nra.
      * assert (/ (1 - (INR K + 1) * (INR K + 1)) < 0) by (apply Rinv_lt_0_compat; nra).
        unfold Rdiv. lra.
Qed.
Lemma ring_even_pos : forall th, 0 < ring_even L th.
Proof.
  intros th. unfold ring_even.
  assert (B : - rsumn (L - 1) (fun i => 2 * Rabs (wcos (S i)))
              <= rsumn (L - 1) (fun i => 2 * wcos (S i) * cos (INR (S i) * th))).
  { replace (- rsumn (L - 1) (fun i => 2 * Rabs (wcos (S i))))
      with (rsumn (L - 1) (fun i => (-1) * (2 * Rabs (wcos (S i))))) by (rewrite rsumn_scal; ring).
    apply rsumn_le; intros i _.
    assert (Rabs (wcos (S i) * cos (INR (S i) * th)) <= Rabs (wcos (S i))).
    { rewrite Rabs_mult. rewrite <- (Rmult_1_r (Rabs (wcos (S i)))) at 2.
      apply Rmult_le_compat_l; [apply Rabs_pos|]. apply Rabs_le. apply COS_bound. }
    assert (X := Rle_abs (- (wcos (S i) * cos (INR (S i) * th)))). rewrite Rabs_Ropp in X. lra. }
  assert (A := wcos_abs_sum (L - 1)). assert (wcos 0 = 2) by (unfold wcos; simpl; field).
  assert (P := pos_INR (L - 1)).
  destruct (Nat.even (L - 1)) eqn:E.
  - assert (0 < 2 / (INR (L - 1) + 1)) by (apply Rmult_lt_0_compat; [lra|apply Rinv_0_lt_compat; lra]). lra.
  - assert (0 < INR (L - 1)). { apply lt_0_INR. destruct (L - 1)%nat; [discriminate|lia]. }
    assert (0 < 2 / INR (L - 1)) by (apply Rmult_lt_0_compat; [lra|apply Rinv_0_lt_compat; lra]). lra.
Qed.
Lemma norm_c_pos : 0 < norm_c.
Proof.
  unfold norm_c. assert (N := n_pos). assert (P := PI_RGT_0).
  apply Rmult_lt_0_compat; [lra|]. apply Rinv_0_lt_compat. apply pow_lt; auto.
Qed.
Lemma ring_weight_pos : forall t, 0 < ring_weight t.
Proof.
  intros t. unfold ring_weight. assert (A := norm_c_pos). assert (B := ring_even_pos (mw_theta L t)).
  destruct (Nat.ltb t (L - 1)); [|apply Rmult_lt_0_compat; auto].
  apply Rmult_lt_0_compat; auto. lra.
Qed.

(** ** exactness in theta *)
Lemma ring_even_cos : forall k, (k < L)%nat ->
  rsumn n (fun t => ring_even L (mw_theta L t) * cos (INR k * mw_theta L t)) = INR n * wcos k.
Proof.
  intros k Hk. unfold ring_even.
  rewrite (rsumn_ext n _ (fun t => wcos 0 * (cos (INR 0 * mw_theta L t) * cos (INR k * mw_theta L t))
     + rsumn (L - 1) (fun i => 2 * wcos (S i) * (cos (INR (S i) * mw_theta L t) * cos (INR k * mw_theta L t))))).
  2:{ intros t _. rewrite Rmult_plus_distr_r. f_equal.
      - simpl INR. rewrite Rmult_0_l, cos_0. ring.
      - rewrite Rmult_comm, <- rsumn_scal. apply rsumn_ext; intros; ring. }
  rewrite rsumn_plus, rsumn_scal, rsumn_exchange.
  unfold mw_theta. fold n. unfold n. rewrite cos_orthogonal by lia. fold n.
  rewrite (rsumn_ext (L - 1) _ (fun i => if Nat.eqb (S i) k then INR n * wcos k else 0)).
  2:{ intros i Hi. rewrite rsumn_scal. unfold n. rewrite cos_orthogonal by lia. fold n.
      destruct (Nat.eqb_spec (S i) k); [|ring]. subst k. cbn [Nat.eqb].
 field. }
  destruct (Nat.eqb_spec 0 k).
  - subst k. rewrite rsumn_zero by auto. simpl. ring.
  - rewrite (rsumn_single (L - 1) (k - 1)).
    + replace (S (k - 1)) with k by lia. rewrite Nat.eqb_refl. ring.
    + lia.
    + intros i Hi Hne. destruct (Nat.eqb_spec (S i) k); [lia|reflexivity].
Qed.

(** sum over the L rings with folded weights = sum over the n points of the
    great circle, for functions symmetric about pi *)
Lemma fold_sum : forall h, (forall t, (t < n)%nat -> h (n - 1 - t)%nat = h t) ->
  rsumn L (fun t => ring_weight t * h t) = norm_c * rsumn n (fun t => ring_even L (mw_theta L t) * h t).
Proof.
  intros h Hh. set (e := fun t => norm_c * (ring_even L (mw_theta L t) * h t)).
  rewrite <- rsumn_scal. fold e. change (rsumn n (fun i => norm_c * (ring_even L (mw_theta L i) * h i))) with (rsumn n e).
  assert (Es : forall t, (t < n)%nat -> e (n - 1 - t)%nat = e t).
  { intros t Ht. unfold e. rewrite Hh, mw_theta_mirror, ring_even_mirror by auto. reflexivity. }
  replace n with (L + (L - 1))%nat at 1 by (unfold n; lia). rewrite rsumn_add.
  rewrite (rsumn_rev (L - 1) (fun i => e (L + i)%nat)).
  rewrite (rsumn_ext (L - 1) _ e).
  2:{ intros i Hi. replace (L + (L - 1 - 1 - i))%nat with (n - 1 - i)%nat by (unfold n; lia).
      apply Es. unfold n; lia. }
  assert (SL : forall f, rsumn L f = rsumn (L - 1) f + f (L - 1)%nat).
  { intros f. replace L with (S (L - 1)) at 1 by lia. apply rsumn_S. }
  rewrite !SL.
  rewrite (rsumn_ext (L - 1) (fun t => ring_weight t * h t) (fun t => e t + e t)).
  - rewrite rsumn_plus. unfold ring_weight at 1. rewrite Nat.ltb_irrefl.
    change (e (L - 1)%nat) with (norm_c * (ring_even L (mw_theta L (L - 1)) * h (L - 1)%nat)). ring.
  - intros i Hi. unfold ring_weight, e. rewrite (proj2 (Nat.ltb_lt i (L - 1)) Hi). ring.
Qed.

Lemma ring_quadrature : forall k, (k < L)%nat ->
  rsumn L (fun t => ring_weight t * cos (INR k * mw_theta L t)) * INR n = 2 * PI * wcos k.
Proof.
  intros k Hk. rewrite (fold_sum (fun t => cos (INR k * mw_theta L t))).
  - rewrite ring_even_cos by auto. unfold norm_c. field. generalize n_pos; lra.
  - intros t Ht. rewrite mw_theta_mirror by auto.
    replace (INR k * (2 * PI - mw_theta L t)) with (2 * PI * INR k + - (INR k * mw_theta L t)) by ring.
    rewrite cos_period_nat, cos_neg. reflexivity.
Qed.
End Closed.
