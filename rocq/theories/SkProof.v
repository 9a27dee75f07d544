(** Proofs about the SKROCK coefficients and recursion. *)
From Coq Require Import List ZArith Lia Bool Reals Lra Psatz String.
From Coquelicot Require Import Coquelicot.
From Verif Require Import PyBase PyBaseFacts Sampler CVec Utils UtilsSpec UtilsProof
  OpSpec Forward Mcmc McmcSpec FwdProof StepProof.
Import ListNotations.
Open Scope R_scope.
Notation length := List.length.

(** ** Chebyshev polynomials just above 1 *)

Lemma cheb1_mono : forall x, 1 <= x -> forall n, 1 <= cheb1_rec x n /\ cheb1_rec x n <= cheb1_rec x (S n).
Proof.
  intros x Hx. induction n as [|n (A & B)].
  - simpl. lra.
  - split; [lra|]. rewrite cheb1_SS. nra.
Qed.
Lemma cheb2_big : forall x, 1 <= x -> forall n, INR (S n) <= cheb2_rec x n /\ 1 <= cheb2_rec x (S n) - cheb2_rec x n.
Proof.
  intros x Hx. induction n as [|n (A & B)].
  - simpl. lra.
  - assert (INR (S (S n)) <= cheb2_rec x (S n)) by (rewrite (S_INR (S n)); lra).
    split; [auto|]. rewrite cheb2_SS. assert (0 <= INR (S (S n))) by apply pos_INR. nra.
Qed.
Lemma cheb1_small : forall s e, 0 <= e -> INR s * INR s * e <= 5 / 100 -> forall k, (k <= s)%nat ->
  cheb1_rec (1 + e) k <= 1 + 11 / 10 * e * (INR k * INR k) /\
  cheb1_rec (1 + e) (S k) - cheb1_rec (1 + e) k <= e * (1 + 22 / 10 * INR k).
Proof.
  intros s e He Hs. induction k as [|k IH]; intros Hk.
  - simpl. lra.
  - destruct (IH ltac:(lia)) as (A & B). rewrite cheb1_SS, S_INR.
    assert (K : 0 <= INR k) by apply pos_INR.
    assert (K2 : INR k + 1 <= INR s) by (rewrite <- S_INR; apply le_INR; lia).
    assert (C1 : cheb1_rec (1 + e) (S k) <= 1 + 11 / 10 * e * ((INR k + 1) * (INR k + 1))) by nra.
    split; [exact C1|].
    assert (C2 : (INR k + 1) * (INR k + 1) * e <= 5 / 100) by (apply Rle_trans with (2 := Hs); apply Rmult_le_compat_r; auto; nra).
    assert (C3 : cheb1_rec (1 + e) (S k) <= 11 / 10) by nra.
    nra.
Qed.

(** ** omega_1 *)
Section Om.
Variable q : numparams.
Variable m : nat.
Hypothesis Hs : n_s q = Z.of_nat m.
Hypothesis Hm : (1 <= m)%nat.

Lemma INRm : 1 <= INR m. Proof. change 1 with (INR 1). apply le_INR; auto. Qed.
Lemma omega_0_ge : 1 <= omega_0 q.
Proof.
  unfold omega_0, eta. rewrite Hs, <- INR_IZR_INZ. assert (H := INRm).
  assert (0 < 5 / 100 / (INR m * INR m)); [|lra]. apply Rdiv_lt_0_compat; nra.
Qed.
Lemma omega_1_ok : exists w, omega_1 q = Ok w /\ 0 < w /\ w * (INR m * INR m) <= 1055 / 1000.
Proof.
  assert (H := INRm). assert (W := omega_0_ge).
  unfold omega_1, chebyshev1, cheb1der, chebyshev2. rewrite Hs.
  destruct (Z.eqb_spec (Z.of_nat m) 0); [lia|]. destruct (Z.ltb_spec (Z.of_nat m) 0); [lia|].
  destruct (Z.ltb_spec (Z.of_nat m - 1) 0); [lia|]. cbn [rbind]. rewrite Nat2Z.id.
  replace (Z.to_nat (Z.of_nat m - 1)) with (m - 1)%nat by lia. rewrite <- INR_IZR_INZ.
  destruct (cheb2_big _ W (m - 1)) as (U & _). replace (S (m - 1)) with m in U by lia.
  destruct (cheb1_mono _ W m) as (T & _).
  set (e := 5 / 100 / (INR m * INR m)).
  assert (E0 : omega_0 q = 1 + e) by (unfold omega_0, eta, e; rewrite Hs, <- INR_IZR_INZ; reflexivity).
  assert (He : INR m * INR m * e = 5 / 100) by (unfold e; field; lra).
  assert (He0 : 0 <= e) by nra.
  destruct (cheb1_small m e He0 ltac:(lra) m (le_n m)) as (T2 & _).
  rewrite E0 in *. set (t := cheb1_rec (1 + e) m) in *. set (u := cheb2_rec (1 + e) (m - 1)) in *.
  assert (P : 0 < INR m * u) by nra.
  destruct (Req_EM_T (INR m * u) 0); [lra|]. exists (t / (INR m * u)). split; [reflexivity|].
  split; [apply Rdiv_lt_0_compat; lra|].
  assert (t <= 1055 / 1000) by nra.
  apply (Rmult_le_reg_r (INR m * u)); [auto|]. replace (t / (INR m * u) * (INR m * INR m) * (INR m * u)) with (t * (INR m * INR m)) by (field; lra).
  nra.
Qed.
End Om.

(** ** Chebyshev polynomials of a small sine *)

Lemma cos_shift_sq : forall i y, (cos (INR i * PI - y)) ^ 2 = (cos y) ^ 2.
Proof.
  induction i as [|i IH]; intros y.
  - simpl INR. rewrite Rmult_0_l. unfold Rminus. rewrite Rplus_0_l, cos_neg. ring.
  - rewrite S_INR. replace ((INR i + 1) * PI - y) with (INR i * PI - y + PI) by ring. rewrite neg_cos.
    rewrite <- IH. ring.
Qed.
Lemma cheb1_even_sq : forall i p, (cheb1_rec (sin p) (2 * i)) ^ 2 = cos (INR (2 * i) * p) ^ 2.
Proof.
  intros i p. rewrite <- cos_shift, cheb1_cos. rewrite <- (cos_shift_sq i).
  f_equal. f_equal. rewrite mult_INR. simpl (INR 2). field.
Qed.
Lemma cheb1_odd_sq : forall i p, (cheb1_rec (sin p) (2 * i + 1)) ^ 2 = sin (INR (2 * i + 1) * p) ^ 2.
Proof.
  intros i p. rewrite <- cos_shift, cheb1_cos. rewrite <- (cos_shift (INR (2 * i + 1) * p)), <- (cos_shift_sq i (PI / 2 - _)).
  rewrite <- (cos_neg (INR i * PI - _)).
  replace (INR (2 * i + 1) * (PI / 2 - p)) with (INR i * PI - (INR (2 * i + 1) * p - PI / 2)).
  - rewrite !cos_neg. replace (INR i * PI - (PI / 2 - INR (2 * i + 1) * p)) with (INR i * PI - (- (INR (2 * i + 1) * p - PI / 2))) by ring.
    rewrite !cos_shift_sq, cos_neg. reflexivity.
  - rewrite plus_INR, mult_INR. simpl (INR 2). simpl (INR 1). field.
Qed.

Lemma small_angles : forall m p, (2 <= m)%nat -> 0 < sin p -> 0 < cos p -> sin p * (INR m * INR m) <= 1055 / 1000 ->
  forall k, (k <= m)%nat -> 0 < cos (INR k * p) /\ 0 <= sin (INR k * p) <= INR k * sin p /\ ((1 <= k)%nat -> 0 < sin (INR k * p)).
Proof.
  intros m p Hm S0 C0 HB. assert (M : 2 <= INR m) by (change 2 with (INR 2); apply le_INR; auto).
  assert (CB := COS_bound p). assert (SC := sin2_cos2 p). unfold Rsqr in SC.
  induction k as [|k IH]; intros Hk.
  - simpl INR. rewrite Rmult_0_l, cos_0, sin_0. repeat split; try lra. lia.
  - destruct (IH ltac:(lia)) as (A & (B1 & B2) & _). rewrite S_INR.
    replace ((INR k + 1) * p) with (INR k * p + p) by ring. rewrite cos_plus, sin_plus.
    assert (CBk := COS_bound (INR k * p)). assert (SCk := sin2_cos2 (INR k * p)). unfold Rsqr in SCk.
    set (c := cos (INR k * p)) in *. set (sk := sin (INR k * p)) in *. set (w := sin p) in *. set (cp := cos p) in *.
    assert (K0 : 0 <= INR k) by apply pos_INR.
    assert (K1 : INR k + 1 <= INR m) by (rewrite <- S_INR; apply le_INR; lia).
    assert (Bc : 1 - (INR k * w) * (INR k * w) <= c) by nra.
    assert (Bp : 1 - w * w <= cp) by nra.
    assert (Bw : w * w * (INR k * INR k + INR k + 1) <= 5 / 10).
    { assert (Q1 : INR k * INR k + INR k + 1 <= INR m * INR m) by nra.
      assert (Q2 : w * w * (INR k * INR k + INR k + 1) <= w * w * (INR m * INR m)) by (apply Rmult_le_compat_l; nra).
      assert (Q3 : w <= 1055 / 4000) by nra. nra. }
    assert (Pos : 0 < c * cp - sk * w).
    { assert (Q1 : sk * w <= INR k * (w * w)) by nra.
      assert (Q0 : 0 <= w * w) by nra.
      assert (Q2 : (1 - INR k * w * (INR k * w)) * (1 - w * w) <= c * cp).
      { apply Rmult_le_compat; auto; nra. }
      assert (Q3 : 0 <= INR k * w * (INR k * w) * (w * w)) by nra.
      nra. }
    split; [exact Pos|]. assert (0 < c * w) by nra. assert (0 <= sk * cp) by nra.
    assert (0 <= sk * cp <= sk) by (split; nra).
    split; [split; nra|]. intros _. nra.
Qed.

(** ** the coefficients *)
Section Coef.
Variable q : numparams.
Variable m : nat.
Hypothesis Hs : n_s q = Z.of_nat m.
Hypothesis Hm : (2 <= m)%nat.

Lemma coef_ok : forall j, (2 <= j <= m)%nat -> exists mu nu, coef q j = Ok (mu, nu, 1) /\
  2 <= Rabs nu /\ ((exists i, j = 2 * i + 1)%nat -> 5 <= Rabs nu).
Proof.
  intros j Hj. destruct (omega_1_ok q m Hs ltac:(lia)) as (w & Ew & W0 & WB).
  assert (M : 2 <= INR m) by (change 2 with (INR 2); apply le_INR; auto).
  assert (W1 : w < 1) by nra. assert (WO := omega_0_ge q m Hs ltac:(lia)).
  set (p := asin w). assert (SP : sin p = w) by (apply sin_asin; lra).
  assert (CP : 0 < cos p).
  { unfold p. rewrite cos_asin by lra. apply sqrt_lt_R0. unfold Rsqr. nra. }
  assert (SA := small_angles m p Hm ltac:(rewrite SP; exact W0) CP ltac:(rewrite SP; exact WB) j ltac:(lia)). destruct SA as (SA1 & (SA2 & SA3) & SA4). specialize (SA4 ltac:(lia)).
  assert (COS := COS_bound (INR j * p)).
  destruct (cheb1_mono _ WO (j - 1)) as (T & _).
  assert (TN : exists t, 0 < t <= 1 /\ Rabs (cheb1_rec w j) = t /\ ((exists i, j = 2 * i + 1)%nat -> t <= INR j * w)).
  { clearbody p. replace (cheb1_rec w j) with (cheb1_rec (sin p) j) by (rewrite SP; reflexivity). destruct (Nat.Even_or_Odd j) as [(i & Ei) | (i & Ei)].
    - exists (cos (INR j * p)). split; [lra|]. split.
      + rewrite <- (Rabs_pos_eq (cos (INR j * p))) by lra. rewrite <- !sqrt_Rsqr_abs. f_equal. rewrite !Rsqr_pow2, Ei. apply cheb1_even_sq.
      + intros (i' & E). lia.
    - assert (SB := SIN_bound (INR j * p)). exists (sin (INR j * p)). split; [lra|]. split.
      + rewrite <- (Rabs_pos_eq (sin (INR j * p))) by lra. rewrite <- !sqrt_Rsqr_abs. f_equal. rewrite !Rsqr_pow2, Ei. apply cheb1_odd_sq.
      + intros _. rewrite <- SP. exact SA3. }
  destruct TN as (t & T01 & Et & Todd).
  unfold coef. rewrite Ew. cbn [rbind]. destruct j as [|[|j]]; try lia.
  unfold chebyshev1. destruct (Z.ltb_spec (Z.of_nat (S (S j)) - 1) 0); [lia|]. destruct (Z.ltb_spec (Z.of_nat (S (S j))) 0); [lia|].
  cbn [rbind]. rewrite Nat2Z.id. replace (Z.to_nat (Z.of_nat (S (S j)) - 1)) with (S (S j) - 1)%nat by lia.
  set (b := cheb1_rec w (S (S j))) in *. set (a := cheb1_rec (omega_0 q) (S (S j) - 1)) in *.
  destruct (Req_EM_T b 0) as [Z|Z]; [rewrite Z, Rabs_R0 in Et; lra|].
  rewrite Rminus_0_r. do 2 eexists. split; [reflexivity|].
  assert (EN : Rabs (2 * omega_0 q * (a / b)) = 2 * (omega_0 q * a) / t).
  { replace (2 * omega_0 q * (a / b)) with ((2 * (omega_0 q * a)) / b) by (field; auto).
    unfold Rdiv. rewrite Rabs_mult, Rabs_inv, Et, Rabs_pos_eq; [reflexivity|nra]. }
  rewrite EN. assert (A1 : 1 <= omega_0 q * a) by nra. split.
  - apply (Rmult_le_reg_r t); [lra|]. replace (2 * (omega_0 q * a) / t * t) with (2 * (omega_0 q * a)) by (field; lra). nra.
  - intros Odd. specialize (Todd Odd). apply (Rmult_le_reg_r t); [lra|].
    replace (2 * (omega_0 q * a) / t * t) with (2 * (omega_0 q * a)) by (field; lra).
    assert (J : INR (S (S j)) <= INR m) by (apply le_INR; lia).
    assert (M3 : 3 <= INR m) by (replace 3 with (INR 3) by (simpl; lra); apply le_INR; destruct Odd; lia).
    assert (t <= INR m * w) by nra. nra.
Qed.

Lemma rseq_exists : forall {A B} (h : A -> res B) l, (forall a, In a l -> exists b, h a = Ok b) -> exists r, rseq (map h l) = Ok r.
Proof.
  induction l as [|a l IH]; intros H; simpl; [eauto|].
  destruct (H a (or_introl eq_refl)) as (b & ->). destruct IH as (r & ->); [intros; apply H; right; auto|]. cbn. eauto.
Qed.

(** with no gradient and no noise, from 0 *)
Fixpoint drift_b (nu : nat -> R) (j : nat) : R :=
  match j with O => 0 | S O => 0 | S ((S i) as k) => nu j * drift_b nu k + 1 - drift_b nu i end.
Lemma drift_b_grows : forall nu, (forall j, (2 <= j <= m)%nat -> 2 <= Rabs (nu j)) ->
  (forall i, (2 <= 2 * i + 1 <= m)%nat -> 5 <= Rabs (nu (2 * i + 1)%nat)) ->
  forall j, (2 <= j <= m)%nat -> 1 <= Rabs (drift_b nu j) /\
    (if Nat.even j then 1 else 3) <= Rabs (drift_b nu j) - Rabs (drift_b nu (j - 1)).
Proof.
  intros nu N2 N5. induction j as [|j IH]; intros Hj; [lia|].
  destruct (Nat.eq_dec j 1) as [->|]; [simpl; rewrite !Rmult_0_r, Rplus_0_l, Rminus_0_r, Rabs_R1, Rabs_R0; lra|].
  destruct (IH ltac:(lia)) as (A & B). clear IH. destruct j as [|[|j]]; try lia.
  replace (S (S j) - 1)%nat with (S j) in B by lia. replace (S (S (S j)) - 1)%nat with (S (S j)) by lia.
  change (drift_b nu (S (S (S j)))) with (nu (S (S (S j))) * drift_b nu (S (S j)) + 1 - drift_b nu (S j)).
  set (x := drift_b nu (S (S j))) in *. set (y := drift_b nu (S j)) in *. set (nj := nu (S (S (S j)))).
  assert (R1 : Rabs nj * Rabs x - 1 - Rabs y <= Rabs (nj * x + 1 - y)).
  { rewrite <- Rabs_mult. unfold Rabs. repeat destruct (Rcase_abs _); lra. }
  assert (N2' := N2 (S (S (S j))) ltac:(lia)). fold nj in N2'.
  rewrite Nat.even_succ, <- Nat.negb_even. destruct (Nat.even (S (S j))) eqn:EV; simpl negb; cbv iota.
  - apply Nat.even_spec in EV. destruct EV as (i & Ei).
    assert (N5' := N5 i ltac:(lia)). replace (2 * i + 1)%nat with (S (S (S j))) in N5' by lia. fold nj in N5'. split; nra.
  - split; nra.
Qed.

End Coef.

Lemma vscal_repeat : forall c z n, vscal c (repeat z n) = repeat (c * z)%C n.
Proof. intros; unfold vscal; apply map_repeat. Qed.
Lemma map2_repeat : forall {A B D} (h : A -> B -> D) a b n, map2 h (repeat a n) (repeat b n) = repeat (h a b) n.
Proof. induction n; simpl; congruence. Qed.

Lemma K_flat : forall f pr q m delta n, n_s q = Z.of_nat m -> (2 <= m)%nat ->
  (forall Y, length Y = n -> gradlogpi f pr q Y None = Ok (vzero n)) ->
  exists nu, (forall j, (2 <= j <= m)%nat -> 2 <= Rabs (nu j)) /\
    (forall i, (2 <= 2 * i + 1 <= m)%nat -> 5 <= Rabs (nu (2 * i + 1)%nat)) /\
    forall j, (j <= m)%nat -> K_recursion f pr q delta (vzero n) j (vzero n) = Ok (repeat (RtoC (drift_b nu j)) n).
Proof.
  intros f pr q m delta n Hs Hm GZ.
  exists (fun j => match coef q j with Ok (mu, nu, k) => nu | _ => 0 end).
  split; [|split].
  - intros j Hj. destruct (coef_ok q m Hs Hm j Hj) as (mu & nu & E & A & B). rewrite E. auto.
  - intros i Hi. destruct (coef_ok q m Hs Hm _ Hi) as (mu & nu & E & A & B). rewrite E. eauto.
  - set (nuf := fun j : nat => match coef q j with Ok (mu, nu, k) => nu | _ => 0 end).
    destruct (omega_1_ok q m Hs ltac:(lia)) as (w & Ew & _).
    assert (SZ : forall c, vscal c (vzero n) = vzero n).
    { intros c. unfold vzero. rewrite vscal_repeat. f_equal. ring. }
    assert (AZ : np_add (vzero n) (vzero n) = Ok (vzero n)).
    { rewrite np_add_same by reflexivity. unfold vadd, vzero. rewrite map2_repeat. f_equal. f_equal. ring. }
    assert (LZ : length (vzero n) = n) by apply repeat_length.
    assert (two : forall j, (S j <= m)%nat -> K_recursion f pr q delta (vzero n) j (vzero n) = Ok (repeat (RtoC (drift_b nuf j)) n) /\
       K_recursion f pr q delta (vzero n) (S j) (vzero n) = Ok (repeat (RtoC (drift_b nuf (S j))) n)).
    { induction j as [|j IH]; intros Hj.
      - split; [reflexivity|]. cbn [K_recursion]. unfold coef. rewrite Ew. cbn [rbind]. rewrite SZ, AZ. cbn [rbind].
        rewrite GZ by exact LZ. cbn [rbind]. rewrite SZ, AZ. cbn [rbind]. rewrite SZ. exact AZ.
      - destruct (IH ltac:(lia)) as (A & B). split; [exact B|].
        change (K_recursion f pr q delta (vzero n) (S (S j)) (vzero n)) with
          (let* c := coef q (S (S j)) in let '(mu, nu, k) := c in
           let* K1 := K_recursion f pr q delta (vzero n) (S j) (vzero n) in
           let* gr := gradlogpi f pr q K1 None in
           let* a := np_add (vscal (RtoC (mu * delta)) gr) (vscal (RtoC nu) K1) in
           let* K2 := K_recursion f pr q delta (vzero n) j (vzero n) in
           np_sub (vshift (RtoC k) a) K2).
        destruct (coef_ok q m Hs Hm (S (S j)) ltac:(lia)) as (mu & nu & E & _).
        assert (NU : nuf (S (S j)) = nu) by (unfold nuf; rewrite E; reflexivity).
        rewrite E. cbn [rbind]. rewrite B. cbn [rbind]. rewrite GZ by apply repeat_length. cbn [rbind].
        rewrite SZ, vscal_repeat. unfold vzero. rewrite np_add_same by (rewrite !repeat_length; reflexivity). cbn [rbind].
        unfold vzero in A. rewrite A. cbn [rbind]. unfold vadd, vshift. rewrite map2_repeat, map_repeat.
        rewrite np_sub_same by (rewrite !repeat_length; reflexivity). unfold vsub. rewrite map2_repeat. f_equal. f_equal.
        change (drift_b nuf (S (S j))) with (nuf (S (S j)) * drift_b nuf (S j) + 1 - drift_b nuf j). rewrite NU. cplx. }
    intros j Hj. destruct j as [|j]; [reflexivity|]. apply (two j ltac:(lia)).
Qed.

(** s = 1 *)
Lemma coef_s1 : forall q, n_s q = 1%Z -> coef q 1 = Ok (1, 525 / 1000, 1).
Proof.
  intros q E. assert (OM : omega_0 q = 105 / 100) by (unfold omega_0, eta; rewrite E; lra).
  assert (O1 : omega_1 q = Ok (105 / 100)).
  { unfold omega_1, cheb1der, chebyshev2, chebyshev1. rewrite E, OM. change (1 =? 0)%Z with false. change (1 <? 0)%Z with false.
    change (1 - 1 <? 0)%Z with false. cbv iota. cbn [rbind]. change (Z.to_nat 1) with 1%nat. change (Z.to_nat (1 - 1)) with O.
    cbn [cheb1_rec cheb2_rec]. destruct (Req_EM_T (1 * 1) 0); [lra|]. f_equal. lra. }
  unfold coef. rewrite O1, OM, E. cbn [rbind]. apply f_equal.
  apply f_equal2; [apply f_equal2|]; lra.
Qed.
Lemma skrock_init_ok : forall q m, n_s q = Z.of_nat m -> (1 <= m)%nat -> exists l, skrock_init q = Ok l.
Proof.
  intros q m Hs Hm. unfold skrock_init. destruct (Z.eqb_spec (n_s q) 0); [lia|]. apply rseq_exists.
  intros j Hj. apply in_seq in Hj. rewrite Hs, Nat2Z.id in Hj. destruct (omega_1_ok q m Hs Hm) as (w & Ew & _).
  destruct j as [|[|j]].
  - unfold coef. rewrite Ew. cbn. eauto.
  - unfold coef. rewrite Ew. cbn. eauto.
  - destruct (coef_ok q m Hs ltac:(lia) (S (S j)) ltac:(lia)) as (mu & nu & E & _). rewrite E. eauto.
Qed.
