(** Property theorems about coefficient packing, band limits, Chebyshev
    polynomials, pixel areas, snr and build_mask
    (/repo/pxmcmc/utils.py; model Utils.v, vocabulary UtilsSpec.v). *)
From Coq Require Import List ZArith Lia Bool Reals Lra.
From Coquelicot Require Import Coquelicot.
From Verif Require Import PyBase CVec RSort Utils UtilsSpec UtilsProof.
Import ListNotations.
Open Scope R_scope.

(** ** C19: packing and unpacking *)

(** multiresolution layout: the wavelet part comes back flattened *)
Theorem C19_roundtrip_multires : forall wav scal b,
  expand_mlm (flatten_mlm wav scal) None (Some (Z.of_nat (length scal))) b = Ok (Arr1 (ravel_F wav), scal).
Proof. exact roundtrip_multires. Qed.
Print Assumptions C19_roundtrip_multires.

(** the order in which flatten_mlm stores a 2-D array: column by column *)
Theorem C19_flatten_order : forall r c buf scal i j, (i < r)%nat -> (j < c)%nat ->
  length (flatten_mlm (Arr2 r c buf) scal) = (length scal + r * c)%nat /\
  nth (length scal + j * r + i) (flatten_mlm (Arr2 r c buf) scal) (RtoC 0) = nth (i * c + j) buf (RtoC 0) /\
  (forall k, (k < length scal)%nat -> nth k (flatten_mlm (Arr2 r c buf) scal) (RtoC 0) = nth k scal (RtoC 0)).
Proof.
  intros r c buf scal i j Hi Hj. unfold flatten_mlm, ravel_F.
  assert (LL : forall a, length (map (fun i => at2 c buf i a) (seq 0 r)) = r) by (intros; rewrite map_length, seq_length; auto).
  repeat match goal with |- _ /\ _ => split end.
  - rewrite app_length, (flat_map_const_length _ r) by auto. rewrite seq_length. lia.
  - rewrite app_nth2 by lia. replace (length scal + j * r + i - length scal)%nat with (j * r + i)%nat by lia.
    rewrite (nth_flat_map_seq _ r) by auto. rewrite (nth_map_in _ _ _ _ 0%nat) by (rewrite seq_length; auto).
    rewrite seq_nth by auto. reflexivity.
  - intros k Hk. rewrite app_nth1 by auto. reflexivity.
Qed.
Print Assumptions C19_flatten_order.

Theorem C19_roundtrip_nscales : forall v n buf scal,
  length buf = (v * n)%nat -> length scal = v -> (1 <= v)%nat ->
  expand_mlm (flatten_mlm (Arr2 v n buf) scal) (Some (Z.of_nat n)) None false = Ok (Arr2 v n buf, scal).
Proof. exact roundtrip_nscales. Qed.
Print Assumptions C19_roundtrip_nscales.

(** Unpacking a vector of any length >= nscales+1 and packing again keeps the
    first (nscales+1)*(len // (nscales+1)) coefficients, hence everything iff
    the length is divisible. *)
Theorem C19_flatten_expand : forall m n, (n + 1 <= length m)%nat ->
  exists wav scal, expand_mlm m (Some (Z.of_nat n)) None false = Ok (wav, scal) /\ wf_nda wav /\
    flatten_mlm wav scal = firstn (length m - length m mod (n + 1)) m /\
    (flatten_mlm wav scal = m <-> (length m mod (n + 1) = 0)%nat).
Proof.
  intros m n H. set (v := (length m / (n + 1))%nat).
  assert (E := Nat.div_mod (length m) (n + 1) ltac:(lia)). fold v in E.
  assert (B := Nat.mod_upper_bound (length m) (n + 1) ltac:(lia)).
  assert (V : (1 <= v)%nat) by nia.
  assert (X := expand_nscales m n false v eq_refl V). cbv iota in X.
  eexists _, _. split; [exact X|]. destruct (flatten_expand m n v _ _ eq_refl V X) as [F _].
  rewrite F. replace (length m - length m mod (n + 1))%nat with ((n + 1) * v)%nat by lia.
  split; [|split; [reflexivity|]].
  - unfold wf_nda. rewrite interleave_length, map_length, seq_length. reflexivity.
  - split; intros Q.
    + apply (f_equal (@length C)) in Q. rewrite firstn_length in Q. lia.
    + apply firstn_all2. lia.
Qed.
Print Assumptions C19_flatten_expand.

(** flatten_wavs=True returns the same coefficients as a 1-D array *)
Theorem C19_expand_flattened : forall m n wav scal, (1 <= n)%nat ->
  expand_mlm m (Some (Z.of_nat n)) None false = Ok (wav, scal) ->
  expand_mlm m (Some (Z.of_nat n)) None true = Ok (Arr1 (ravel_F wav), scal).
Proof.
  intros m n wav scal Hn H. destruct (Nat.lt_ge_cases (length m) (n + 1)) as [Q|Q].
  - destruct (expand_errors m false) as [_ [_ [_ [_ [X _]]]]]. rewrite X in H by lia. discriminate.
  - set (v := (length m / (n + 1))%nat).
    assert (E := Nat.div_mod (length m) (n + 1) ltac:(lia)). fold v in E.
    assert (B := Nat.mod_upper_bound (length m) (n + 1) ltac:(lia)).
    assert (V : (1 <= v)%nat) by nia.
    destruct (flatten_expand m n v wav scal eq_refl V H) as [F L].
    rewrite (expand_nscales m n false v eq_refl V) in H. cbv iota in H.
    rewrite (expand_nscales m n true v eq_refl V). destruct n as [|n]; [lia|].
    injection H as HW HS. unfold flatten_mlm in F. rewrite <- HS in *.
    do 2 f_equal. f_equal.
    replace ((S n + 1) * v)%nat with (v + S n * v)%nat in F by nia.
    rewrite firstn_plus_app in F. apply app_inv_head in F. rewrite <- HW in F |- *. congruence.
Qed.
Print Assumptions C19_expand_flattened.

(** nscalcoefs of any sign splits the vector in two at a clamped position *)
Theorem C19_expand_nscalcoefs : forall m (k : Z) b,
  let n := Z.of_nat (length m) in
  let j := Z.to_nat (if (k <? 0)%Z then Z.max 0 (n + k) else Z.min k n) in
  expand_mlm m None (Some k) b = Ok (Arr1 (skipn j m), firstn j m) /\
  flatten_mlm (Arr1 (skipn j m)) (firstn j m) = m.
Proof.
  intros m k b n j. split; [|unfold flatten_mlm; simpl; apply firstn_skipn].
  assert (J : (j <= length m)%nat) by (unfold j, n; destruct (Z.ltb_spec k 0); lia).
  unfold expand_mlm. rewrite <- (py_slice_to m j J), <- (py_slice_from m j J).
  unfold py_slice, slice_bound, j, n. destruct (Z.ltb_spec k 0).
  - destruct (Z.ltb_spec (Z.of_nat (Z.to_nat (Z.max 0 (Z.of_nat (length m) + k)))) 0); [lia|].
    replace (Z.min (Z.of_nat (Z.to_nat (Z.max 0 (Z.of_nat (length m) + k)))) (Z.of_nat (length m)))
      with (Z.max 0 (Z.of_nat (length m) + k)) by lia. reflexivity.
  - destruct (Z.ltb_spec (Z.of_nat (Z.to_nat (Z.min k (Z.of_nat (length m))))) 0); [lia|].
    replace (Z.min (Z.of_nat (Z.to_nat (Z.min k (Z.of_nat (length m))))) (Z.of_nat (length m)))
      with (Z.min k (Z.of_nat (length m))) by lia. reflexivity.
Qed.
Print Assumptions C19_expand_nscalcoefs.

(** invalid arguments *)
Theorem C19_errors : forall m b,
  expand_mlm m None None b = Raise ValueError /\
  (forall a c, expand_mlm m (Some a) (Some c) b = Raise ValueError) /\
  expand_mlm m (Some (-1)%Z) None b = Raise ZeroDivisionError /\
  (forall n, (n < -1)%Z -> expand_mlm m (Some n) None b = Raise AssertionError) /\
  (forall n, (0 <= n)%Z -> (Z.of_nat (length m) <= n)%Z -> expand_mlm m (Some n) None b = Raise AssertionError) /\
  (m <> [] -> expand_mlm m (Some 0%Z) None true = Raise ValueError).
Proof. exact expand_errors. Qed.
Print Assumptions C19_errors.

(** 7 coefficients, 2 scales: the 7th is lost *)
Example C19_case : let z x := RtoC x in
  exists wav scal,
    expand_mlm [z 1; z 2; z 3; z 4; z 5; z 6; z 7] (Some 2%Z) None false = Ok (wav, scal) /\
    wav = Arr2 2 2 [z 3; z 5; z 4; z 6] /\ scal = [z 1; z 2] /\
    flatten_mlm wav scal = [z 1; z 2; z 3; z 4; z 5; z 6].
Proof. simpl. eexists _, _. split; [reflexivity|]. repeat split; reflexivity. Qed.

(** ** C28: band limits *)

Theorem C28_bandlimits : forall L t b bs,
  multires_bandlimits L t = Ok (b :: bs) <->
  (length (phi_l t) = L /\
   (forall psi, In psi (psi_cols t) -> forall el, (el < L)%nat -> (el ^ 2 + el < length psi)%nat) /\
   is_bandlimit (window (phi_l t)) b /\
   Forall2 (fun psi b => is_bandlimit (window_m0 L psi) b) (psi_cols t) bs).
Proof. exact multires_ok. Qed.
Print Assumptions C28_bandlimits.

(** the band limits returned lie between 1 and L *)
Theorem C28_range : forall L t l, multires_bandlimits L t = Ok l ->
  length l = S (length (psi_cols t)) /\ forall b, In b l -> (1 <= b <= L)%nat.
Proof.
  intros L t l H. destruct l as [|b bs].
  - exfalso. unfold multires_bandlimits in H. destruct (rseq (map (m0_part L) (psi_cols t))); simpl in H; [|discriminate].
    destruct (Nat.eqb (length (phi_l t)) L); [|discriminate]. destruct (bandlimit_of (phi_l t)); simpl in H; [|discriminate].
    destruct (rseq (map bandlimit_of a)); discriminate.
  - apply multires_ok in H. destruct H as [HL [_ [B F]]]. split; [simpl; f_equal; clear -F; induction F; simpl; auto|].
    assert (X : forall g c, is_bandlimit g c -> (forall l, (L <= l)%nat -> g l = RtoC 0) -> (1 <= c <= L)%nat).
    { intros g c [A [N _]] Z. split; auto. destruct (Nat.le_gt_cases c L); auto. exfalso. apply N, Z. lia. }
    intros c [<-|Hc].
    + apply (X _ _ B). intros l Hl. unfold window. apply nth_overflow. lia.
    + clear -F Hc X. induction F; [contradiction|]. destruct Hc as [<-|Hc]; auto.
      apply (X _ _ H). intros k Hk. unfold window_m0. destruct (Nat.ltb_spec k L); [lia|reflexivity].
Qed.
Print Assumptions C28_range.

(** When it raises: harmonics missing (IndexError), a scaling function of the
    wrong length, or a window that vanishes identically (ValueError). *)
Theorem C28_errors : forall L t e, multires_bandlimits L t = Raise e ->
  (e = IndexError /\ exists psi, In psi (psi_cols t) /\ ~ (forall el, (el < L)%nat -> (el ^ 2 + el < length psi)%nat)) \/
  (e = ValueError /\ (forall psi, In psi (psi_cols t) -> forall el, (el < L)%nat -> (el ^ 2 + el < length psi)%nat) /\
   (length (phi_l t) <> L \/ (forall l, window (phi_l t) l = RtoC 0) \/
    exists psi, In psi (psi_cols t) /\ forall l, window_m0 L psi l = RtoC 0)).
Proof. exact multires_errors. Qed.
Print Assumptions C28_errors.

(** a window that vanishes identically always makes it raise *)
Theorem C28_vanishing_raises : forall L t,
  ((forall l, window (phi_l t) l = RtoC 0) \/ exists psi, In psi (psi_cols t) /\ forall l, window_m0 L psi l = RtoC 0) ->
  exists e, multires_bandlimits L t = Raise e.
Proof.
  intros L t H. destruct (multires_bandlimits L t) as [[|b bs]|e] eqn:E; eauto; exfalso.
  - apply C28_range in E. destruct E; discriminate.
  - apply multires_ok in E. destruct E as [_ [_ [[_ [B _]] F]]]. destruct H as [H|[psi [I H]]]; [auto|].
    clear -F I H. induction F; [contradiction|]. destruct I as [<-|I]; auto. destruct H0 as [_ [N _]]. auto.
Qed.
Print Assumptions C28_vanishing_raises.

Example C28_case :
  multires_bandlimits 2 (mkTiling [RtoC 1; RtoC 0] [[RtoC 0; RtoC 0; RtoC 1; RtoC 0]]) = Ok [1%nat; 2%nat].
Proof.
  apply multires_ok. simpl. repeat match goal with |- _ /\ _ => split end; auto.
  - intros psi [<-|[]] el Hel. simpl. destruct el as [|[|el]]; simpl; lia.
  - repeat split; simpl; auto; [intros X; apply RtoC_inj in X; lra|].
    intros [|[|l]] Hl; simpl; auto; [lia|]. destruct l; auto.
  - constructor; [|constructor]. repeat split; simpl; auto; [intros X; apply RtoC_inj in X; lra|].
    intros l Hl. unfold window_m0. destruct (Nat.ltb_spec l 2); [lia|reflexivity].
Qed.

(** ** C22: Chebyshev polynomials *)

(** inside [-1,1] *)
Theorem C22_cheb1_cos : forall n t, chebyshev1 (cos t) (Z.of_nat n) = Ok (cos (INR n * t)).
Proof.
  intros. unfold chebyshev1. destruct (Z.ltb_spec (Z.of_nat n) 0); [lia|]. rewrite Nat2Z.id, cheb1_cos. reflexivity.
Qed.
Print Assumptions C22_cheb1_cos.
Theorem C22_cheb2_sin : forall n t, exists u, chebyshev2 (cos t) (Z.of_nat n) = Ok u /\ u * sin t = sin (INR (S n) * t).
Proof.
  intros. unfold chebyshev2. destruct (Z.ltb_spec (Z.of_nat n) 0); [lia|]. rewrite Nat2Z.id. eexists; split; [reflexivity|].
  apply cheb2_sin.
Qed.
Print Assumptions C22_cheb2_sin.
(** every real |x| >= 1 is (z + 1/z)/2 for some z; there: *)
Theorem C22_cheb1_outside : forall n z, z <> 0 ->
  chebyshev1 ((z + / z) / 2) (Z.of_nat n) = Ok ((z ^ n + (/ z) ^ n) / 2).
Proof.
  intros. unfold chebyshev1. destruct (Z.ltb_spec (Z.of_nat n) 0); [lia|]. rewrite Nat2Z.id, cheb1_hyp by auto. reflexivity.
Qed.
Print Assumptions C22_cheb1_outside.
Theorem C22_cheb2_outside : forall n z, z <> 0 ->
  exists u, chebyshev2 ((z + / z) / 2) (Z.of_nat n) = Ok u /\ u * (z - / z) = z ^ (S n) - (/ z) ^ (S n).
Proof.
  intros. unfold chebyshev2. destruct (Z.ltb_spec (Z.of_nat n) 0); [lia|]. rewrite Nat2Z.id. eexists; split; [reflexivity|].
  apply cheb2_hyp; auto.
Qed.
Print Assumptions C22_cheb2_outside.
(** the values at the two points 1 and -1 where sin t and z - 1/z vanish *)
Theorem C22_cheb2_ends : forall n,
  chebyshev2 1 (Z.of_nat n) = Ok (INR (S n)) /\ chebyshev2 (-1) (Z.of_nat n) = Ok ((-1) ^ n * INR (S n)).
Proof.
  intros n. unfold chebyshev2. destruct (Z.ltb_spec (Z.of_nat n) 0); [lia|]. rewrite Nat2Z.id.
  split; f_equal; induction n using two_step_ind; try (simpl; ring);
    rewrite cheb2_SS, IHn, IHn0 by lia; rewrite ?S_INR; simpl pow; ring.
Qed.
Print Assumptions C22_cheb2_ends.
(** every real is covered by the two parametrisations *)
Theorem C22_parametrisation : forall x, (exists t, x = cos t) \/ (exists z, z <> 0 /\ x = (z + / z) / 2).
Proof.
  intros x. destruct (Rle_dec (-1) x); [destruct (Rle_dec x 1)|].
  - left. exists (acos x). rewrite cos_acos; auto. 
  - right. assert (Q : 0 < x ^ 2 - 1) by nra. assert (S0 := sqrt_lt_R0 _ Q).
    assert (S2 := sqrt_sqrt (x ^ 2 - 1) ltac:(lra)).
    exists (x + sqrt (x ^ 2 - 1)). assert (N : x + sqrt (x ^ 2 - 1) <> 0) by lra. split; auto.
    apply (Rmult_eq_reg_r (2 * (x + sqrt (x ^ 2 - 1)))); [|lra]. field_simplify; auto. simpl in *. nra.
  - right. assert (Q : 0 < x ^ 2 - 1) by nra. assert (S0 := sqrt_lt_R0 _ Q).
    assert (S2 := sqrt_sqrt (x ^ 2 - 1) ltac:(lra)).
    exists (x - sqrt (x ^ 2 - 1)). assert (N : x - sqrt (x ^ 2 - 1) <> 0) by lra. split; auto.
    apply (Rmult_eq_reg_r (2 * (x - sqrt (x ^ 2 - 1)))); [|lra]. field_simplify; auto. simpl in *. nra.
Qed.
Print Assumptions C22_parametrisation.

(** cheb1der is the derivative of chebyshev1 *)
Theorem C22_derivative : forall n x, exists f d,
  (forall y, chebyshev1 y (Z.of_nat n) = Ok (f y)) /\ cheb1der x (Z.of_nat n) = Ok d /\ is_derive f x d.
Proof.
  intros n x. exists (fun y => cheb1_rec y n), (INR n * match n with O => 0 | S m => cheb2_rec x m end).
  repeat match goal with |- _ /\ _ => split end.
  - intros y. unfold chebyshev1. destruct (Z.ltb_spec (Z.of_nat n) 0); [lia|]. rewrite Nat2Z.id. reflexivity.
  - unfold cheb1der. destruct (Z.ltb_spec (Z.of_nat n) 0); [lia|]. destruct (Z.eqb_spec (Z.of_nat n) 0).
    + assert (n = 0%nat) by lia. subst. simpl. f_equal. ring.
    + destruct n as [|n]; [lia|]. unfold chebyshev2. destruct (Z.ltb_spec (Z.of_nat (S n) - 1) 0); [lia|].
      cbn [rbind]. replace (Z.to_nat (Z.of_nat (S n) - 1)) with n by lia. rewrite <- INR_IZR_INZ. reflexivity.
  - apply cheb1_derive.
Qed.
Print Assumptions C22_derivative.

Theorem C22_negative_order : forall x n, (n < 0)%Z ->
  chebyshev1 x n = Raise ValueError /\ chebyshev2 x n = Raise ValueError /\ cheb1der x n = Raise ValueError.
Proof.
  intros x n H. unfold chebyshev1, chebyshev2, cheb1der. destruct (Z.ltb_spec n 0); [auto|lia].
Qed.
Print Assumptions C22_negative_order.

Example C22_case : chebyshev1 2 3 = Ok 26 /\ chebyshev2 2 2 = Ok 15 /\ cheb1der 2 3 = Ok 45.
Proof. unfold cheb1der, chebyshev1, chebyshev2; simpl. repeat split; f_equal; ring. Qed.

(** ** C23: pixel areas *)

Theorem C23_positive : forall L r rows, (1 <= L)%nat -> r <> 0 ->
  calc_pixel_areas (mw_thetas L) (mw_phis L) r = Ok rows ->
  length rows = L /\ (forall row, In row rows -> length row = (2 * L - 1)%nat /\ forall a, In a row -> 0 < a).
Proof. exact areas_positive. Qed.
Print Assumptions C23_positive.
Theorem C23_total : forall L r rows, (1 <= L)%nat ->
  calc_pixel_areas (mw_thetas L) (mw_phis L) r = Ok rows -> rsum (List.concat rows) = 4 * PI * r ^ 2.
Proof. exact areas_sum. Qed.
Print Assumptions C23_total.
(** Each entry of row t is the area of its patch: the integral of
    r^2 sin(theta) over theta between the previous sample position (0 for the
    first row) and this one, and over a longitude width 2 pi/(2L-1). *)
Theorem C23_patch_areas : forall L r, (1 <= L)%nat ->
  exists rows, calc_pixel_areas (mw_thetas L) (mw_phis L) r = Ok rows /\
  forall t p, (t < L)%nat -> (p < 2 * L - 1)%nat ->
    is_RInt (fun theta => r ^ 2 * sin theta * (2 * PI / INR (2 * L - 1))) (strip_top L t) (strip_bottom L t)
            (nth p (nth t rows []) 0).
Proof.
  intros L r HL. eexists. split; [apply areas_closed; auto|]. intros t p Ht Hp.
  rewrite (nth_map_in _ _ _ _ 0%nat) by (rewrite seq_length; auto). rewrite seq_nth by auto.
  rewrite nth_repeat_lt by auto. simpl plus.
  assert (Hn : INR (2 * L - 1) <> 0) by (apply not_0_INR; lia).
  evar_last.
  - apply (is_RInt_derive (fun th => - (r ^ 2 * (2 * PI / INR (2 * L - 1))) * cos th)
                          (fun th => r ^ 2 * sin th * (2 * PI / INR (2 * L - 1)))).
    + intros x _. auto_derive; auto. simpl. field. exact Hn.
    + intros x _. apply (ex_derive_continuous (K := R_AbsRing) (V := R_NormedModule)). auto_derive. auto.
  - unfold minus, plus, opp; simpl. field. exact Hn.
Qed.
Print Assumptions C23_patch_areas.
(** without sample positions (L = 0) there is no first row *)
Theorem C23_empty : forall phis r, calc_pixel_areas [] phis r = Raise IndexError.
Proof. reflexivity. Qed.
Print Assumptions C23_empty.
Example C23_case : calc_pixel_areas (mw_thetas 1) (mw_phis 1) 1 = Ok [[4 * PI]].
Proof.
  rewrite areas_closed by auto. simpl. unfold strip_top, strip_bottom. simpl.
  replace (1 * PI / 1) with PI by field. rewrite cos_0, cos_PI. do 3 f_equal. field.
Qed.

(** ** C25: snr *)

(** an array with a nonzero entry *)
Definition nonzero (x : vec) : Prop := exists z, In z x /\ z <> RtoC 0.
Lemma nonzero_norm : forall x, nonzero x -> 0 < norm x.
Proof.
  intros x [z [I N]]. destruct (norm_nonneg x) as [H|H]; auto. exfalso. symmetry in H. apply N.
  apply (proj1 (norm_zero_iff x) H); auto.
Qed.
Theorem C25_scaling : forall s n c, nonzero s -> nonzero n -> c <> RtoC 0 ->
  snr (vscal c s) n = snr s n + 20 * log10 (Cmod c).
Proof.
  intros s n c S N Hc. apply nonzero_norm in S, N. assert (K := Cmod_gt_0 c). apply K in Hc.
  unfold snr. rewrite norm_vscal. replace (Cmod c * norm s / norm n) with (Cmod c * (norm s / norm n)) by (field; lra).
  rewrite log10_mult; auto; [ring|]. apply Rdiv_lt_0_compat; auto.
Qed.
Print Assumptions C25_scaling.
Theorem C25_antisymmetric : forall s n, nonzero s -> nonzero n -> snr s n = - snr n s.
Proof.
  intros s n S N. apply nonzero_norm in S, N. unfold snr.
  replace (norm s / norm n) with (/ (norm n / norm s)) by (field; lra). rewrite log10_inv; [ring|].
  apply Rdiv_lt_0_compat; auto.
Qed.
Print Assumptions C25_antisymmetric.
(** norm is the Euclidean norm *)
Theorem C25_norm : forall x, 0 <= norm x /\ (norm x) ^ 2 = rsum (map (fun z => (Cmod z) ^ 2) x).
Proof. intros x. split; [apply norm_nonneg|]. unfold norm. rewrite pow2_sqrt; [reflexivity|apply nrm2_nonneg]. Qed.
Print Assumptions C25_norm.
(** strictly increasing in the signal norm; hence 0 iff the norms agree *)
Theorem C25_monotone : forall s s' n, nonzero s -> nonzero s' -> nonzero n ->
  (snr s n < snr s' n <-> norm s < norm s').
Proof.
  assert (M : forall s s' n, nonzero s -> nonzero s' -> nonzero n -> norm s < norm s' -> snr s n < snr s' n).
  { intros s s' n S S' N H. apply nonzero_norm in S, S', N. unfold snr. apply Rmult_lt_compat_l; [lra|].
    apply log10_increasing; [apply Rdiv_lt_0_compat; auto|]. apply Rmult_lt_compat_r; auto. apply Rinv_0_lt_compat; auto. }
  intros s s' n S S' N. split; [|auto]. intros H. destruct (Rtotal_order (norm s) (norm s')) as [Q|[Q|Q]]; auto; exfalso.
  - unfold snr in H. rewrite Q in H. lra.
  - apply (M s' s n) in Q; auto. lra.
Qed.
Print Assumptions C25_monotone.
Theorem C25_zero : forall s n, nonzero s -> nonzero n -> (snr s n = 0 <-> norm s = norm n).
Proof.
  intros s n S N. assert (Z : snr n n = 0).
  { apply nonzero_norm in N. unfold snr. replace (norm n / norm n) with 1 by (field; lra). rewrite log10_1. ring. }
  split; intros H.
  - destruct (Rtotal_order (norm s) (norm n)) as [Q|[Q|Q]]; auto; exfalso; apply (C25_monotone _ _ n) in Q; auto; lra.
  - rewrite <- Z. unfold snr. rewrite H. reflexivity.
Qed.
Print Assumptions C25_zero.
Example C25_case : snr [RtoC 10] [RtoC 1] = 20.
Proof.
  unfold snr, norm, nrm2; simpl. rewrite !Cmod_R, !Rabs_right by lra.
  replace (10 * (10 * 1) + 0) with (10 ^ 2) by ring. replace (1 * (1 * 1) + 0) with (1 ^ 2) by ring.
  rewrite !sqrt_pow2 by lra. replace (10 / 1) with 10 by field. rewrite log10_10. ring.
Qed.

(** ** C26: build_mask *)

Theorem C26_shape : forall L gal_b size,
  let m := build_mask L (mw_thetas L) (mw_phis L) gal_b size in
  length m = L /\ forall row, In row m -> length row = (2 * L - 1)%nat.
Proof. intros. apply mask_where_shape. Qed.
Print Assumptions C26_shape.
(** Pixel (i,j) lies at colatitude theta, longitude phi, i.e. at declination
    90 - theta and right ascension phi.  The code looks up the point
    (phi - 180, theta - 90), the antipode; for a latitude function that changes
    sign under the antipodal map the absolute value is the same. *)
Theorem C26_exact : forall L gal_b size i j, (i < L)%nat -> (j < 2 * L - 1)%nat ->
  (forall ra dec, gal_b (ra - 180) (- dec) = - gal_b ra dec) ->
  let m := nth j (nth i (build_mask L (mw_thetas L) (mw_phis L) gal_b size) []) 0 in
  let theta := degrees (nth i (mw_thetas L) 0) in let phi := degrees (nth j (mw_phis L) 0) in
  (m = 0 \/ m = 1) /\
  (m = 0 <-> (Rabs (90 - theta) < size \/ Rabs (gal_b phi (90 - theta)) < size)).
Proof.
  intros L gal_b size i j Hi Hj A m theta phi. destruct (build_mask_entry L gal_b size i j Hi Hj) as [P Q].
  split; [exact P|]. unfold m. rewrite Q. fold theta phi. replace (theta - 90) with (- (90 - theta)) by ring.
  rewrite A, Rabs_Ropp. reflexivity.
Qed.
Print Assumptions C26_exact.
(** the latitude above any great circle is such a function *)
Theorem C26_galactic : forall ra0 dec0 ra dec,
  galactic_latitude ra0 dec0 (ra - 180) (- dec) = - galactic_latitude ra0 dec0 ra dec.
Proof. exact galactic_antipode. Qed.
Print Assumptions C26_galactic.
Theorem C26_monotone : forall L gal_b s1 s2 i j, (i < L)%nat -> (j < 2 * L - 1)%nat -> s1 <= s2 ->
  nth j (nth i (build_mask L (mw_thetas L) (mw_phis L) gal_b s1) []) 0 = 0 ->
  nth j (nth i (build_mask L (mw_thetas L) (mw_phis L) gal_b s2) []) 0 = 0.
Proof.
  intros L gal_b s1 s2 i j Hi Hj H E. apply build_mask_entry in E; auto. apply build_mask_entry; auto.
  destruct E; [left|right]; lra.
Qed.
Print Assumptions C26_monotone.
(** without the antipodal symmetry of the latitude the lookup would matter:
    for a latitude that is not odd the masked set is not the documented one *)
Theorem C26_lookup_is_antipode : exists gal_b size,
  let m := nth 0 (nth 0 (build_mask 1 (mw_thetas 1) (mw_phis 1) gal_b size) []) 0 in
  let theta := degrees (nth 0 (mw_thetas 1) 0) in let phi := degrees (nth 0 (mw_phis 1) 0) in
  m = 0 /\ ~ (Rabs (90 - theta) < size \/ Rabs (gal_b phi (90 - theta)) < size).
Proof.
  assert (T : degrees (nth 0 (mw_thetas 1) 0) = 180) by (simpl; unfold degrees; field; apply PI_neq0).
  exists (fun ra dec => if Rlt_dec 0 dec then 0 else 50), 10. cbv zeta. split.
  - apply build_mask_entry; auto. right. rewrite T. destruct (Rlt_dec 0 (180 - 90)); [|lra]. rewrite Rabs_R0. lra.
  - rewrite T. destruct (Rlt_dec 0 (90 - 180)); [lra|]. intros [H|H].
    + rewrite Rabs_left in H by lra. lra.
    + rewrite Rabs_right in H by lra. lra.
Qed.
Print Assumptions C26_lookup_is_antipode.
(** L = 2: the first row is at colatitude 60, the second at 180; a mask of 40
    degrees takes out the first row but not the pole when the galactic pole is
    the celestial pole *)
Example C26_case : let m := build_mask 2 (mw_thetas 2) (mw_phis 2) (galactic_latitude 0 90) 40 in
  nth 0 (nth 0 m []) 0 = 0 /\ nth 0 (nth 1 m []) 0 = 1.
Proof.
  assert (T0 : degrees (nth 0 (mw_thetas 2) 0) = 60) by (simpl; unfold degrees; field; apply PI_neq0).
  assert (T1 : degrees (nth 1 (mw_thetas 2) 0) = 180) by (simpl; unfold degrees; field; apply PI_neq0).
  intros m. split.
  - apply build_mask_entry; try lia. left. rewrite T0. rewrite Rabs_right by lra. lra.
  - destruct (build_mask_entry 2 (galactic_latitude 0 90) 40 1 0 ltac:(lia) ltac:(lia)) as [[P|P] Q]; [exfalso|exact P].
    apply Q in P. rewrite T1 in P. destruct P as [P|P].
    + rewrite Rabs_left in P by lra. lra.
    + assert (E : galactic_latitude 0 90 (degrees (nth 0 (mw_phis 2) 0) - 180) (180 - 90) = 90).
      { unfold galactic_latitude, sin_lat. replace (radians 90) with (PI / 2) by (unfold radians; field).
        replace (radians (180 - 90)) with (PI / 2) by (unfold radians; field).
        rewrite sin_PI2, cos_PI2. replace (1 * 1 + 0 * 0 * _) with 1 by ring. rewrite asin_1. unfold degrees. field. apply PI_neq0. }
      rewrite E, Rabs_right in P by lra. lra.
Qed.
