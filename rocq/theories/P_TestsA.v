(** C54: the assertions of /repo/tests for all inputs (first part: utils and
    measurements).  The random inputs of the tests are universally quantified,
    the band limit L = 10 of conftest.py is arbitrary, np.isclose is equality. *)
From Coq Require Import List ZArith Lia Bool Reals Lra Psatz String.
From Coquelicot Require Import Coquelicot.
From Verif Require Import PyBase PyBaseFacts CVec RSort Thresh ThreshSpec ThreshProof P_Thresh Utils UtilsSpec UtilsProof P_Utils OpSpec TrigSum Quad QuadSpec QuadProof QuadMain
  P_Quad Measure MeasSpec MeasProof P_Meas Forward FwdProof.
Import ListNotations.
Open Scope R_scope.
Notation length := List.length.

(** ** test_utils.py *)

(** test_flattenmlm (8-14): constant columns come out one after the other, the
    scaling function first *)
Theorem C54_flatten : forall v n (val : nat -> C) s,
  flatten_mlm (Arr2 v n (flat_map (fun _ => map val (seq 0 n)) (seq 0 v))) (repeat s v) =
  repeat s v ++ List.concat (map (fun j => repeat (val j) v) (seq 0 n)).
Proof.
  intros v n val s. unfold flatten_mlm. f_equal. cbn [ravel_F]. rewrite flat_map_concat_map. f_equal. apply map_ext_in. intros j Ij. apply in_seq in Ij.
  apply (nth_ext _ _ (RtoC 0) (RtoC 0)); [rewrite map_length, seq_length, repeat_length; reflexivity|].
  intros i Hi. rewrite map_length, seq_length in Hi. rewrite (nth_map_in _ _ _ _ 0%nat) by (rewrite seq_length; exact Hi).
  rewrite seq_nth by exact Hi. cbn [Nat.add]. unfold at2. rewrite (nth_flat_map_seq _ n) by (try lia; intros; rewrite map_length, seq_length; reflexivity).
  rewrite (nth_map_in _ _ _ _ 0%nat) by (rewrite seq_length; lia). rewrite seq_nth by lia. cbn [Nat.add].
  clear - Hi. revert i Hi. induction v; intros [|i] Hi; [lia|lia|reflexivity|]. cbn. apply IHv. lia.
Qed.
Print Assumptions C54_flatten.

(** test_expandmlm (17-21): the shapes for any number of scales *)
Theorem C54_expand : forall m v n, length m = ((n + 1) * v)%nat -> (1 <= v)%nat ->
  exists buf scal, expand_mlm m (Some (Z.of_nat n)) None false = Ok (Arr2 v n buf, scal) /\ length buf = (v * n)%nat /\ length scal = v.
Proof.
  intros m v n Lm Hv.
  set (scal := firstn v m). set (buf := flat_map (fun i => map (fun j => nth (v + j * v + i) m (RtoC 0)) (seq 0 n)) (seq 0 v)).
  assert (LB : length buf = (v * n)%nat) by (unfold buf; rewrite (flat_map_const_length _ n) by (intros; rewrite map_length, seq_length; reflexivity); rewrite seq_length; lia).
  assert (LS : length scal = v) by (unfold scal; rewrite firstn_length; nia).
  assert (E : m = flatten_mlm (Arr2 v n buf) scal).
  { unfold flatten_mlm, scal. rewrite <- (firstn_skipn v m) at 1. f_equal. cbn [ravel_F].
    assert (LL : forall j, length (map (fun i => at2 n buf i j) (seq 0 v)) = v) by (intros; rewrite map_length, seq_length; reflexivity).
    apply (nth_ext _ _ (RtoC 0) (RtoC 0)).
    - rewrite skipn_length, (flat_map_const_length _ v) by (intros; apply LL). rewrite seq_length. nia.
    - intros k Hk. rewrite skipn_length in Hk.
      assert (Ek : k = (k / v * v + k mod v)%nat) by (rewrite (Nat.div_mod k v) at 1; lia).
      assert (Hm : (k mod v < v)%nat) by (apply Nat.mod_upper_bound; lia). assert (Hd : (k / v < n)%nat) by (apply Nat.div_lt_upper_bound; nia).
      rewrite skipn_nth. rewrite Ek at 2. rewrite (nth_flat_map_seq _ v) by auto.
      rewrite (nth_map_in _ _ _ _ 0%nat) by (rewrite seq_length; exact Hm). rewrite seq_nth by exact Hm. cbn [Nat.add]. unfold at2, buf.
      rewrite (nth_flat_map_seq _ n) by (try lia; intros; rewrite map_length, seq_length; reflexivity).
      rewrite (nth_map_in _ _ _ _ 0%nat) by (rewrite seq_length; lia). rewrite seq_nth by lia. cbn [Nat.add]. f_equal. lia. }
  exists buf, scal. split; [|auto]. rewrite E. apply C19_roundtrip_nscales; auto.
Qed.
Print Assumptions C54_expand.

(** test_soft (36-45) *)
Theorem C54_soft :
  soft (map RtoC [1; 2; 3]) (TScal 2) = Ok (map RtoC [0; 0; 1]) /\
  soft (map RtoC [-1; -2; -3]) (TScal 2) = Ok (map RtoC [0; 0; -1]) /\
  soft [(1, 1); (1 / 2, - (1 / 2)); RtoC 0] (TScal 1) = Ok [((1, 1) * RtoC ((sqrt 2 - 1) / sqrt 2))%C; RtoC 0; RtoC 0].
Proof.
  split; [|split]; rewrite soft_scal; cbn [map]; unfold soft1.
  - rewrite !Cmod_R. rewrite !Rabs_right by lra. repeat (destruct (Rle_dec _ _); try lra). destruct (Req_EM_T _ _); try lra.
    rewrite <- RtoC_mult. do 4 f_equal. f_equal. field.
  - rewrite !Cmod_R. rewrite !Rabs_left by lra. repeat (destruct (Rle_dec _ _); try lra). destruct (Req_EM_T _ _); try lra.
    rewrite <- RtoC_mult. do 4 f_equal. f_equal. field.
  - assert (S1 : 1 < sqrt 2) by (rewrite <- sqrt_1 at 1; apply sqrt_lt_1; lra).
    assert (M1 : Cmod (1, 1) = sqrt 2) by (unfold Cmod; cbn; f_equal; ring).
    assert (M2 : Cmod (1 / 2, - (1 / 2)) <= 1).
    { unfold Cmod. cbn [fst snd]. apply Rle_trans with (sqrt 1); [apply sqrt_le_1; cbn [pow]; lra|rewrite sqrt_1; lra]. }
    rewrite M1, Cmod_0. destruct (Rle_dec (sqrt 2) 1); [lra|]. destruct (Rle_dec (Cmod (1 / 2, - (1 / 2))) 1); [|lra]. destruct (Rle_dec 0 1); [|lra].
    destruct (Req_EM_T (sqrt 2) 0); [lra|]. do 2 f_equal. unfold RtoC, Cmult. cbn [fst snd]. f_equal; field; assumption.
Qed.
Print Assumptions C54_soft.

(** test_hard (48-52): an array of increasing magnitudes keeps its last int(T n) entries *)
Lemma count_le : forall p (l : list R) i, (i <= length l)%nat -> (forall j, (j < i)%nat -> p (nth j l 0) = false) -> (count p l <= length l - i)%nat.
Proof.
  intros p l. induction l as [|a l IH]; intros i Hi H; [cbn; lia|]. destruct i as [|i].
  - assert (Q := IH 0%nat ltac:(lia) ltac:(intros; lia)). unfold count in *. cbn [filter]. destruct (p a); cbn [length] in *; lia.
  - assert (Q := IH i ltac:(cbn in Hi; lia) ltac:(intros j Hj; apply (H (S j)); lia)). unfold count in *. cbn [filter].
    assert (PA : p a = false) by (apply (H 0%nat); lia). rewrite PA. cbn [length]. lia.
Qed.
Lemma count_ge : forall p (l : list R) i, (forall j, (i <= j < length l)%nat -> p (nth j l 0) = true) -> (length l - i <= count p l)%nat.
Proof.
  intros p l. induction l as [|a l IH]; intros i H; [cbn; lia|]. destruct i as [|i].
  - assert (Q := IH 0%nat ltac:(intros j Hj; apply (H (S j)); cbn; lia)). unfold count in *. cbn [filter].
    assert (PA : p a = true) by (apply (H 0%nat); cbn; lia). rewrite PA. cbn [length]. lia.
  - assert (Q := IH i ltac:(intros j Hj; apply (H (S j)); cbn; lia)). unfold count in *. cbn [filter]. destruct (p a); cbn [length] in *; lia.
Qed.

Theorem C54_hard : forall X T k, let n := length X in
  (forall i j, (i < j < n)%nat -> Cmod (nth i X (RtoC 0)) < Cmod (nth j X (RtoC 0))) ->
  truncation (T * INR n) (Z.of_nat k) -> (1 <= k <= n)%nat ->
  hard X T = Ok (repeat (RtoC 0) (n - k) ++ skipn (n - k) X).
Proof.
  intros X T k n Inc Tr Hk.
  assert (NA : forall i, (i < n)%nat -> nth i (vabs X) 0 = Cmod (nth i X (RtoC 0))) by (intros i Hi; unfold vabs; apply nth_map_in; exact Hi).
  assert (LA : length (vabs X) = n) by apply map_length.
  assert (ND : NoDup (vabs X)).
  { apply (NoDup_nth (vabs X) 0). rewrite LA. intros i j Hi Hj E. rewrite !NA in E by assumption.
    destruct (Nat.lt_trichotomy i j) as [H|[H|H]]; [|exact H|]; [assert (Q := Inc i j ltac:(lia))|assert (Q := Inc j i ltac:(lia))]; lra. }
  destruct (C21_hard_exactly_k X T (Z.of_nat k) Tr ltac:(lia) ND) as (v & r & E & (Lr & K) & CN). rewrite Nat2Z.id in CN. rewrite E. f_equal.
  apply (nth_ext _ _ (RtoC 0) (RtoC 0)); [rewrite app_length, repeat_length, skipn_length; fold n; lia|].
  intros i Hi. rewrite Lr in Hi. destruct (K i Hi) as (K1 & K2).
  destruct (Nat.lt_ge_cases i (n - k)) as [H|H].
  - rewrite app_nth1 by (rewrite repeat_length; exact H). rewrite (nth_repeat (RtoC 0)). apply K2.
    destruct (Rlt_le_dec (Cmod (nth i X (RtoC 0))) v) as [|G]; [assumption|exfalso].
    assert (Q := count_ge (fun a => Rleb v a) (vabs X) i). rewrite CN, LA in Q. apply (Nat.lt_irrefl k).
    eapply Nat.lt_le_trans; [|apply Q]; [fold n in Hi; lia|]. intros j Hj. rewrite NA by lia.
    destruct (Rleb_spec v (Cmod (nth j X (RtoC 0)))); [reflexivity|]. exfalso.
    destruct (Nat.eq_dec i j) as [<-|]; [lra|]. assert (Q' := Inc i j ltac:(lia)). lra.
  - rewrite app_nth2 by (rewrite repeat_length; exact H). rewrite repeat_length, skipn_nth. replace (n - k + (i - (n - k)))%nat with i by lia. apply K1.
    destruct (Rlt_le_dec (Cmod (nth i X (RtoC 0))) v) as [G|]; [exfalso|assumption].
    assert (Q := count_le (fun a => Rleb v a) (vabs X) (S i)). rewrite CN, LA in Q. fold n in Hi. assert (Q1 : (k <= n - S i)%nat); [|lia].
    apply Q; [lia|]. intros j Hj. rewrite NA by lia. destruct (Rleb_spec v (Cmod (nth j X (RtoC 0)))); [|reflexivity]. exfalso.
    destruct (Nat.eq_dec i j) as [<-|]; [lra|]. assert (Q' := Inc j i ltac:(lia)). lra.
Qed.
Print Assumptions C54_hard.

Example C54_case_hard : hard (map (fun i => RtoC (INR i)) (seq 1 10)) (3 / 10) =
  Ok (map (fun i => RtoC (INR i)) [0; 0; 0; 0; 0; 0; 0; 8; 9; 10]%nat).
Proof.
  rewrite (C54_hard _ _ 3); [reflexivity| | |cbn; lia].
  2:{ rewrite map_length, seq_length. replace (INR 10) with 10 by (cbn; ring). cbn. split; intros; lra. }
  intros i j H. change (length (map (fun i => RtoC (INR i)) (seq 1 10))) with 10%nat in H.
  rewrite !(nth_map_in _ _ _ _ 0%nat) by (rewrite seq_length; lia). rewrite !seq_nth by lia. rewrite !Cmod_R.
  rewrite !Rabs_right by (apply Rle_ge, pos_INR). apply lt_INR. lia.
Qed.

(** test_chebyshev1, test_chebyshev2, test_cheb1der (55-67) *)
Theorem C54_chebyshev :
  chebyshev1 5 0 = Ok 1 /\ chebyshev1 2 1 = Ok 2 /\ chebyshev1 3 5 = Ok 3363 /\
  chebyshev2 5 0 = Ok 1 /\ chebyshev2 2 1 = Ok 4 /\ chebyshev2 3 5 = Ok 6930 /\
  cheb1der 5 0 = Ok 0 /\ cheb1der 2 1 = Ok 1 /\ cheb1der 3 5 = Ok 5945.
Proof.
  unfold cheb1der, chebyshev1, chebyshev2; simpl. repeat split; f_equal; ring.
Qed.
Print Assumptions C54_chebyshev.

(** test_pixel_area, test_polar_cap_area (70-78): the areas of a rectangle in
    (theta, phi) and of a cap *)
Theorem C54_areas : forall r t1 t2 p1 p2,
  is_RInt (fun th => r ^ 2 * sin th * (p2 - p1)) t1 t2 (pixel_area r t1 t2 p1 p2) /\
  is_RInt (fun th => r ^ 2 * sin th * (2 * PI)) 0 t2 (polar_cap_area r t2) /\
  pixel_area 1 0 PI 0 (2 * PI) = 4 * PI /\ polar_cap_area 1 (PI / 2) = 2 * PI /\ polar_cap_area 1 PI = 4 * PI.
Proof.
  intros r t1 t2 p1 p2.
  assert (S : forall a b, is_RInt sin a b (cos a - cos b)).
  { intros a b. replace (cos a - cos b) with (minus ((fun t => - cos t) b) ((fun t => - cos t) a)) by (unfold minus, plus, opp; cbn; ring).
    apply (is_RInt_derive (fun t => - cos t)); [intros x _; auto_derive; auto; ring|]. intros x _. apply (ex_derive_continuous sin). auto_derive; auto. }
  assert (M : forall c a b, is_RInt (fun th => r ^ 2 * sin th * c) a b (r ^ 2 * c * (cos a - cos b))).
  { intros c a b. apply is_RInt_ext with (fun th => scal (r ^ 2 * c) (sin th)); [intros x _; unfold scal; cbn; unfold mult; cbn; ring|].
    apply (is_RInt_scal sin a b (r ^ 2 * c)), S. }
  split; [|split]; [| |unfold pixel_area, polar_cap_area; rewrite ?cos_PI, ?cos_0, ?cos_PI2; repeat split; ring].
  - replace (pixel_area r t1 t2 p1 p2) with (r ^ 2 * (p2 - p1) * (cos t1 - cos t2)) by (unfold pixel_area; ring). apply M.
  - replace (polar_cap_area r t2) with (r ^ 2 * (2 * PI) * (cos 0 - cos t2)) by (unfold polar_cap_area; rewrite cos_0; ring). apply M.
Qed.
Print Assumptions C54_areas.

(** ** test_measurements.py *)

(** test_pathintegral_fwd_weights (31-44): one path along the parallel of row
    [t], weighted by the spacing in longitude [sample_positions(L)[1][1]].  Its
    prediction for a band-limited image is the integral along the parallel; for
    the image of ones, 2 pi.  With L = 1 there is no second longitude. *)
Definition parallel (L t : nat) (spacing : R) : cmat :=
  mkMat 1 (L * (2 * L - 1)) (fun _ j => if Nat.eqb (j / (2 * L - 1)) t then RtoC spacing else RtoC 0).

Lemma sum_rows : forall L n (F : nat -> C), csum (map F (seq 0 (L * n))) = csumn L (fun t => csumn n (fun p => F (t * n + p)%nat)).
Proof.
  induction L as [|L IH]; intros n F; [reflexivity|]. rewrite csumn_S, <- IH. replace (S L * n)%nat with (L * n + n)%nat by lia.
  rewrite seq_app, map_app, csum_app. f_equal. cbn [Nat.add]. unfold csumn. f_equal.
  apply (nth_ext _ _ (RtoC 0) (RtoC 0)); [rewrite !map_length, !seq_length; reflexivity|].
  intros i Hi. rewrite map_length, seq_length in Hi. rewrite !(nth_map_in _ _ _ _ 0%nat) by (rewrite seq_length; exact Hi).
  rewrite !seq_nth by exact Hi. reflexivity.
Qed.

Lemma parallel_sum : forall L t s x, (t < L)%nat -> length x = (L * (2 * L - 1))%nat ->
  Path_forward (parallel L t s) x = Ok [RtoC s * csumn (2 * L - 1) (fun p => nth (t * (2 * L - 1) + p) x (RtoC 0))]%C.
Proof.
  intros L t s x Ht Lx. destruct (C30_values (parallel L t s) x) as (H & _). destruct (H Lx) as (y & E & Ly & Hy). rewrite E. f_equal.
  cbn [m_rows parallel] in Ly, Hy. destruct y as [|y0 [|]]; try discriminate. f_equal. specialize (Hy 0%nat ltac:(lia)). cbn [nth m_cols parallel] in Hy.
  rewrite Hy. rewrite sum_rows. rewrite (csumn_single L t); [|exact Ht|].
  - rewrite <- csumn_scal. apply csumn_ext. intros p Hp. cbn [m_ent parallel]. rewrite Nat.div_add_l by lia. rewrite Nat.div_small by exact Hp.
    rewrite Nat.add_0_r, Nat.eqb_refl. reflexivity.
  - intros t' Ht' N. apply csumn_zero. intros p Hp. cbn [m_ent parallel]. rewrite Nat.div_add_l by lia. rewrite Nat.div_small by exact Hp.
    rewrite Nat.add_0_r. destruct (Nat.eqb_spec t' t); [contradiction|]. ring.
Qed.

Theorem C54_parallel : forall L t f, (2 <= L)%nat -> (t < L)%nat -> band_limited L f ->
  exists s, py_index (mw_phis L) 1 = Ok s /\
    (exists v, Path_forward (parallel L t s) (mw_sample f L) = Ok [v] /\ is_CInt (f (mw_theta L t)) 0 (2 * PI) v) /\
    Path_forward (parallel L t s) (repeat (RtoC 1) (L * (2 * L - 1))) = Ok [RtoC (2 * PI)].
Proof.
  intros L t f HL Ht (c & gp & gm & Hf).
  assert (NZ : INR (2 * L - 1) <> 0) by (apply not_0_INR; lia).
  exists (2 * PI * INR 1 / INR (2 * L - 1)). split; [|split].
  - unfold py_index. assert (LP : length (mw_phis L) = (2 * L - 1)%nat) by (unfold mw_phis; rewrite map_length, seq_length; reflexivity).
    rewrite LP. cbn [Z.ltb Z.compare]. destruct (Z.leb_spec (Z.of_nat (2 * L - 1)) 1) as [Q|_]; [lia|]. cbn [orb].
    change (Z.to_nat 1) with 1%nat. rewrite (nth_error_nth' _ 0) by lia. f_equal. unfold mw_phis.
    rewrite (nth_map_in _ _ _ _ 0%nat) by (rewrite seq_length; lia). rewrite seq_nth by lia. reflexivity.
  - eexists. split; [apply parallel_sum; [exact Ht|apply sample_length]|].
    set (A := csum (map (fun k => c k * RtoC (cos (mw_theta L t) ^ k))%C (seq 0 L))).
    set (n := (2 * L - 1)%nat) in *.
    assert (E : csumn n (fun p => nth (t * n + p) (mw_sample f L) (RtoC 0)) = (RtoC (INR n) * A)%C).
    { rewrite (csumn_ext _ _ (fun p => A + csumn (L - 1) (fun i => gp (S i) (mw_theta L t) * cexpi (INR (S i) * mw_phi L p) +
                                                          gm (S i) (mw_theta L t) * cexpi (- (INR (S i) * mw_phi L p))))%C).
      2:{ intros p Hp. unfold mw_sample. fold n. rewrite (nth_flat_map_seq _ n) by (try assumption; intros; rewrite map_length, seq_length; reflexivity).
          rewrite (nth_map_in _ _ _ _ 0%nat) by (rewrite seq_length; exact Hp). rewrite seq_nth by exact Hp. cbn [Nat.add]. rewrite Hf, seq_csumn. reflexivity. }
      rewrite csumn_plus, csumn_const, csumn_exchange. rewrite (csumn_zero (L - 1)); [ring|]. intros i Hi.
      rewrite csumn_plus, !csumn_scal. unfold n. rewrite sum_cexpi, sum_cexpi_neg by lia. ring. }
    rewrite E. replace (RtoC (2 * PI * INR 1 / INR n) * (RtoC (INR n) * A))%C with (RtoC (2 * PI - 0) * A + csumn (L - 1) (fun _ => RtoC 0))%C.
    2:{ rewrite csumn_zero by auto. replace (RtoC (2 * PI * INR 1 / INR n) * (RtoC (INR n) * A))%C with (RtoC (2 * PI * INR 1 / INR n * INR n) * A)%C by (rewrite (RtoC_mult (2 * PI * INR 1 / INR n)); ring).
        replace (2 * PI * INR 1 / INR n * INR n) with (2 * PI - 0) by (cbn [INR]; field; exact NZ). ring. }
    apply is_CInt_ext with (fun ph => A + csumn (L - 1) (fun i => gp (S i) (mw_theta L t) * cexpi (INR (S i) * ph) + gm (S i) (mw_theta L t) * cexpi (- (INR (S i) * ph))))%C.
    { intros ph. rewrite Hf, seq_csumn. reflexivity. }
    apply is_CInt_plus; [apply is_CInt_const|]. apply is_CInt_sum. intros i Hi.
    replace (RtoC 0) with (gp (S i) (mw_theta L t) * RtoC 0 + gm (S i) (mw_theta L t) * RtoC 0)%C by ring.
    apply is_CInt_plus; apply is_CInt_scal; [apply is_CInt_cexpi|apply is_CInt_cexpi_neg]; lia.
  - rewrite parallel_sum by (auto; apply repeat_length). do 2 f_equal.
    rewrite (csumn_ext _ _ (fun _ => RtoC 1)). 2:{ intros p Hp. apply nth_repeat_in. nia. }
    rewrite csumn_const, Cmult_1_r, <- RtoC_mult. f_equal. cbn [INR]. field. exact NZ.
Qed.
Print Assumptions C54_parallel.

(** the test itself raises IndexError at L = 1 *)
Theorem C54_parallel_refuted : exists L, (1 <= L)%nat /\ py_index (mw_phis L) 1 = Raise IndexError.
Proof. exists 1%nat. split; [lia|reflexivity]. Qed.
Print Assumptions C54_parallel_refuted.

(** test_weaklensingharmonic_dot (47-68): besides the adjointness of C31, the
    outputs are non-zero; exactly monopole and dipole are lost *)
Theorem C54_harmonic_kernel : forall L w x y, WLH_init L = Ok w -> length x = Z.to_nat (L * L) -> WLH_forward w x = Ok y \/ WLH_adjoint w x = Ok y ->
  ((forall i, (i < length x)%nat -> nth i y (RtoC 0) = RtoC 0) <-> (forall i, (4 <= i < length x)%nat -> nth i x (RtoC 0) = RtoC 0)).
Proof.
  intros L w x y E Lx EY.
  assert (EZ : WLH_forward w x = Ok y) by (destruct EY as [EY|EY]; exact EY). clear EY.
  destruct (C31_sks_estimate L w x E Lx) as (z & Ez & _ & Lz & Hz). rewrite EZ in Ez. cbn [rbind] in Ez.
  destruct (Z.lt_ge_cases L 1) as [HL|HL]; [rewrite (proj1 (C31_construction L) HL) in E; discriminate|].
  destruct (proj2 (C31_construction L) HL) as (w' & E' & Lk & _). rewrite E in E'. apply Ok_inj in E'. subst w'. rewrite <- Lx in Lk.
  assert (EY : forall i, (i < length x)%nat -> nth i y (RtoC 0) = if Nat.ltb i 4 then RtoC 0 else (nth i x (RtoC 0) * RtoC (nth i (wl_kernel w) 0))%C).
  { intros i Hi. unfold WLH_forward, harmonic_mapping, np_mul in EZ. rewrite np_bin_eq in EZ by (rewrite map_length; auto). cbn [rbind] in EZ. apply Ok_inj in EZ. subst y.
    assert (LM : length (map2 Cmult x (map RtoC (wl_kernel w))) = length x) by (rewrite length_map2, map_length; lia).
    rewrite zero_head_nth by (rewrite LM; exact Hi). destruct (Nat.ltb i 4); [reflexivity|].
    rewrite (nth_map2 _ _ _ _ (RtoC 0) (RtoC 0)) by (rewrite ?map_length; lia). rewrite (nth_map_in _ _ _ _ 0) by lia. reflexivity. }
  assert (LY : length y = length x).
  { destruct (C31_forward L w x E Lx) as (y' & EY' & Ly & _). rewrite EZ in EY'. apply Ok_inj in EY'. subst y'. exact Ly. }
  split; intros H i Hi.
  - assert (Q := Hz i (proj2 Hi)). destruct (Nat.ltb_spec i 4); [lia|]. rewrite <- Q.
    unfold WLH_sks_estimate, harmonic_inverse_mapping, np_div in Ez. rewrite np_bin_eq in Ez by (rewrite map_length; lia). cbn [rbind] in Ez. apply Ok_inj in Ez. subst z.
    assert (LM : length (map2 Cdiv y (map RtoC (wl_kernel w))) = length x) by (rewrite length_map2, map_length; lia).
    rewrite zero_head_nth by (rewrite LM; lia). destruct (Nat.ltb i 4); [reflexivity|].
    rewrite (nth_map2 _ _ _ _ (RtoC 0) (RtoC 0)) by (rewrite ?map_length; lia). rewrite (H i) by lia. unfold Cdiv. ring.
  - rewrite (EY i Hi). destruct (Nat.ltb_spec i 4); [reflexivity|]. rewrite (H i) by lia. ring.
Qed.
Print Assumptions C54_harmonic_kernel.
