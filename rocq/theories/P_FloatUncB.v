(** C68, continued: rounding errors of the uncertainties; hard and snr. *)
From Coq Require Import List ZArith Lia Bool Reals Lra Permutation Sorted.
From Verif Require Import PyBase PyBaseFacts CVec RSort Thresh Utils UtilsProof Transforms Uncertainty UncProof P_Unc
  Ieee FloatOps FloatUnc RoundProof P_FloatOps FloatUncProof P_FloatUnc.
Import ListNotations.
Open Scope R_scope.

(** ** rounding errors *)
Lemma within_sort : forall A a, within A a -> within A (rsort a).
Proof.
  intros A a W. apply Forall_forall. intros x Hx. apply (proj1 (Forall_forall _ _) W). apply (Permutation_in _ (Permutation_sym (rsort_perm a))). exact Hx.
Qed.
Lemma within_nth : forall A a k, within A a -> (k < length a)%nat -> Rabs (nth k a 0) <= A.
Proof. intros A a k W Hk. apply (proj1 (Forall_forall _ _) W). now apply nth_In. Qed.

Lemma lerp_close : forall rnd F M eps A x y t g, rounding rnd F -> accurate rnd M eps -> eps <= 1 -> 4 + 3 * A <= M ->
  Rabs x <= A -> Rabs y <= A -> 0 <= t <= 1 -> 0 <= g <= 1 -> Rabs (g - t) <= eps ->
  exists z, f_lerp rnd (Fin x) (Fin y) (Fin g) = Fin z /\ Rabs (z - (x + (y - x) * t)) <= eps * (3 + 4 * A).
Proof.
  intros rnd F M eps A x y t g H (He & AC) He1 HM Hx Hy Ht Hg Hgt.
  assert (A0 : 0 <= A) by (assert (Q := Rabs_pos x); lra).
  apply abs_le in Hx. apply abs_le in Hy. apply abs_le in Hgt.
  destruct (AC (y - x)) as (d & Ed & Hd); [apply abs_le; lra|]. apply abs_le in Hd.
  unfold f_lerp. assert (S1 : fsub rnd (Fin y) (Fin x) = Fin d) by exact Ed. rewrite S1. cbn [fleb]. destruct (Rle_dec (1 / 2) g) as [L|L].
  - destruct (AC (1 - g)) as (h & Eh & Hh); [apply abs_le; lra|]. apply abs_le in Hh.
    assert (H0 : 0 <= h <= 1).
    { assert (G0 := ro_mono _ _ H 0 (1 - g) ltac:(lra)). rewrite (ro_fix _ _ H 0 (ro_zero _ _ H)), Eh in G0.
      assert (G1 := ro_mono _ _ H (1 - g) 1 ltac:(lra)). rewrite (ro_fix _ _ H 1 (ro_one _ _ H)), Eh in G1. cbn in *. lra. }
    assert (S2 : fsub rnd (Fin 1) (Fin g) = Fin h) by exact Eh. rewrite S2.
    destruct (AC (d * h)) as (p & Ep & Hp); [apply abs_le; split; nra|]. apply abs_le in Hp.
    cbn [fmul]. rewrite Ep.
    assert (Dh : - (2 * A + eps) <= d * h <= 2 * A + eps) by (split; nra).
    destruct (AC (y - p)) as (z & Ez & Hz); [apply abs_le; lra|]. apply abs_le in Hz.
    exists z. split; [exact Ez|]. apply abs_le.
    assert (U : - (eps + 4 * A * eps) <= d * h - (y - x) * (1 - t) <= eps + 4 * A * eps).
    { replace (d * h - (y - x) * (1 - t)) with ((d - (y - x)) * h + (y - x) * (h - (1 - t))) by ring.
      assert (U1 : - eps <= (d - (y - x)) * h <= eps) by (split; nra).
      assert (U2 : - (2 * A * (2 * eps)) <= (y - x) * (h - (1 - t)) <= 2 * A * (2 * eps)).
      { apply abs_le. rewrite Rabs_mult. apply Rmult_le_compat; auto using Rabs_pos; apply abs_le; lra. }
      lra. }
    replace (x + (y - x) * t) with (y - (y - x) * (1 - t)) by ring. lra.
  - destruct (AC (d * g)) as (p & Ep & Hp); [apply abs_le; split; nra|]. apply abs_le in Hp.
    cbn [fmul]. rewrite Ep. assert (Dh : - (2 * A + eps) <= d * g <= 2 * A + eps) by (split; nra).
    destruct (AC (x + p)) as (z & Ez & Hz); [apply abs_le; lra|]. apply abs_le in Hz.
    exists z. split; [exact Ez|]. apply abs_le.
    assert (U : - (eps + 2 * A * eps) <= d * g - (y - x) * t <= eps + 2 * A * eps).
    { replace (d * g - (y - x) * t) with ((d - (y - x)) * g + (y - x) * (g - t)) by ring.
      assert (U1 : - eps <= (d - (y - x)) * g <= eps) by (split; nra).
      assert (U2 : - (2 * A * eps) <= (y - x) * (g - t) <= 2 * A * eps).
      { apply abs_le. rewrite Rabs_mult. apply Rmult_le_compat; auto using Rabs_pos; apply abs_le; lra. }
      lra. }
    assert (0 <= A * eps) by nra. lra.
Qed.

Theorem C68_quantile_close : forall rnd F M eps A a q q' e, rounding rnd F -> accurate rnd M eps -> eps <= 1 ->
  5 + 3 * A + 2 * INR (length a) <= M -> within A a -> a <> [] -> 0 <= q <= 1 -> 0 <= q' <= 1 -> Rabs (q' - q) <= e ->
  exists z z0, f_quantile rnd (map Fin a) (Fin q') = Ok (Fin z) /\ np_quantile a q = Ok z0 /\
    Rabs (z - z0) <= eps * (3 + 6 * A) + 2 * A * (INR (length a) * e).
Proof.
  intros rnd F M eps A a q q' e H AC He1 HM W Ha Hq Hq' He. assert (AC' := AC). destruct AC as (He0 & AC).
  assert (Hn : (0 < length a)%nat) by (destruct a; [congruence|cbn; lia]). set (n := length a) in *.
  assert (A0 : 0 <= A) by (assert (Q := within_nth A a 0 W Hn); assert (Q1 := Rabs_pos (nth 0 a 0)); lra).
  assert (N1 : 0 <= INR (n - 1)) by apply pos_INR. assert (N2 : INR n = INR (n - 1) + 1) by (rewrite <- S_INR; f_equal; lia).
  assert (e0 : 0 <= e) by (assert (Q := Rabs_pos (q' - q)); lra).
  set (v := INR (n - 1) * q'). assert (Hv : 0 <= v <= INR (n - 1)) by (unfold v; nra).
  destruct (AC v) as (w & Ew & Hw); [apply abs_le; lra|]. apply abs_le in Hw.
  set (z0 := interp (rsort a) (q * INR (n - 1))).
  assert (S0 := rsort_sorted a). assert (Ws := within_sort A a W). assert (Ls : length (rsort a) = n) by apply rsort_length.
  assert (V0 := virtual_range n q Hq).
  assert (LIP : forall w', 0 <= w' <= INR (n - 1) -> Rabs (w' - v) <= eps -> Rabs (interp (rsort a) w' - z0) <= 2 * A * (eps + INR n * e)).
  { intros w' Hw1 Hw2. assert (Q := interp_lip (rsort a) (q * INR (n - 1)) w' A S0 Ws). rewrite Ls in Q. specialize (Q Hn V0 Hw1).
    apply Rle_trans with (1 := Q). apply Rmult_le_compat_l; [lra|]. apply abs_le in Hw2. apply abs_le in He. apply abs_le.
    assert (- (INR (n - 1) * e) <= INR (n - 1) * (q' - q) <= INR (n - 1) * e) by (split; nra). unfold v in *. assert (INR (n - 1) * e <= INR n * e) by nra.
    split; nra. }
  assert (NM : forall k, (k < n)%nat -> nth k (f_sort (map Fin a)) NaN = Fin (nth k (rsort a) 0)).
  { intros k Hk. rewrite f_sort_fin. rewrite nth_indep with (d' := Fin 0) by (rewrite map_length; lia). apply map_nth. }
  assert (VQ : np_quantile a q = Ok z0) by (apply np_quantile_Ok; auto).
  assert (HV : fmul rnd (Fin (INR (length (map Fin a) - 1))) (Fin q') = Fin w) by (rewrite map_length; exact Ew).
  destruct (Rle_dec (INR (n - 1)) w) as [L|L].
  - assert (Q := quantile_top rnd (map Fin a) (Fin q') ltac:(destruct a; [congruence|discriminate]) (valid_fin q' Hq')). cbv zeta in Q. rewrite HV in Q.
    rewrite map_length in Q. fold n in Q. rewrite (NM (n - 1)%nat) in Q by lia. cbn [fleb f_is_nan] in Q. destruct (Rle_dec (INR (n - 1)) w); [|lra].
    specialize (Q eq_refl). set (x := nth (n - 1) (rsort a) 0) in *.
    assert (Hx : Rabs x <= A) by (apply within_nth; [exact Ws|lia]). apply abs_le in Hx.
    destruct (AC (w + 1)) as (g & Eg & Hg); [apply abs_le; lra|]. apply abs_le in Hg.
    assert (Eg' : fsub rnd (Fin w) (Fin (-1)) = Fin g) by (unfold fsub; cbn [fneg fadd]; replace (w + - -1) with (w + 1) by lra; exact Eg). rewrite Eg' in Q.
    destruct (AC (1 - g)) as (h & Eh & Hh); [apply abs_le; lra|].
    destruct (AC x) as (z & Ez & Hz); [apply abs_le; lra|]. apply abs_le in Hz.
    assert (Z : f_lerp rnd (Fin x) (Fin x) (Fin g) = Fin z).
    { assert (R0 := ro_fix _ _ H 0 (ro_zero _ _ H)). unfold f_lerp, fsub. cbn [fneg fadd]. replace (x + - x) with 0 by lra. rewrite R0.
      change (1 + - g) with (1 - g). rewrite Eh. cbn [fmul]. rewrite !Rmult_0_l, R0. cbn [fneg fadd]. rewrite Ropp_0, Rplus_0_r, Ez. destruct (fleb _ _); reflexivity. }
    rewrite Z in Q. exists z, z0. split; [exact Q|]. split; [exact VQ|].
    assert (T := LIP (INR (n - 1)) ltac:(lra) ltac:(apply abs_le; lra)).
    assert (IL := interp_last (rsort a)). rewrite Ls in IL. rewrite IL in T by exact Hn. fold x in T. apply abs_le in T. apply abs_le.
    assert (0 <= A * eps) by nra. lra.
  - assert (w0 : 0 <= w).
    { assert (G0 := ro_mono _ _ H 0 v ltac:(lra)). rewrite (ro_fix _ _ H 0 (ro_zero _ _ H)), Ew in G0. exact G0. }
    destruct (index_cases n w Hn ltac:(lra)) as [(k & t & Hk & Ht & E)|E]; [|lra].
    assert (Q := quantile_mid rnd (map Fin a) (Fin q') w k (valid_fin q' Hq')). cbv zeta in Q. specialize (Q HV ltac:(lra)).
    rewrite map_length in Q. fold n in Q. specialize (Q Hk). rewrite !NM in Q by lia. cbn [f_is_nan] in Q.
    replace (w - INR k) with t in Q by lra.
    destruct (AC t) as (g & Eg & Hg); [apply abs_le; lra|]. rewrite Eg in Q.
    assert (G01 : 0 <= g <= 1).
    { assert (G0 := ro_mono _ _ H 0 t ltac:(lra)). rewrite (ro_fix _ _ H 0 (ro_zero _ _ H)), Eg in G0.
      assert (G1 := ro_mono _ _ H t 1 ltac:(lra)). rewrite (ro_fix _ _ H 1 (ro_one _ _ H)), Eg in G1. cbn in *. lra. }
    destruct (lerp_close rnd F M eps A (nth k (rsort a) 0) (nth (S k) (rsort a) 0) t g H AC' He1 ltac:(lra)) as (z & Ez & Hz);
      [apply within_nth; auto; lia|apply within_nth; auto; lia|lra|exact G01|exact Hg|].
    rewrite Ez in Q. exists z, z0. split; [exact Q|]. split; [exact VQ|].
    assert (T := LIP w ltac:(lra) ltac:(apply abs_le; lra)). rewrite E, interp_segment in T by (lra || lia).
    replace ((1 - t) * nth k (rsort a) 0 + t * nth (S k) (rsort a) 0) with (nth k (rsort a) 0 + (nth (S k) (rsort a) 0 - nth k (rsort a) 0) * t) in T by ring.
    apply abs_le in T. apply abs_le in Hz. apply abs_le. lra.
Qed.
Print Assumptions C68_quantile_close.

Lemma column_fin : forall rows cols j, List.Forall (fun r : list R => length r = cols) rows -> (j < cols)%nat ->
  f_column j (map (map Fin) rows) = map Fin (column j rows).
Proof.
  intros rows cols j H J. unfold f_column, column. rewrite !map_map. apply map_ext_in. intros r Hr.
  assert (L : length r = cols) by exact (proj1 (Forall_forall _ _) H r Hr). rewrite nth_indep with (d' := Fin 0) by (rewrite map_length; lia). apply map_nth.
Qed.
Lemma column_length : forall j rows, length (column j rows) = length rows.
Proof. intros. apply map_length. Qed.
Lemma column_within : forall A j cols rows, 0 <= A -> List.Forall (within A) rows -> List.Forall (fun r : list R => length r = cols) rows -> within A (column j rows).
Proof.
  intros A j cols rows HA H L. apply Forall_forall. intros x Hx. apply in_map_iff in Hx. destruct Hx as (r & <- & Hr).
  assert (Wr := proj1 (Forall_forall _ _) H r Hr). destruct (le_lt_dec (length r) j) as [G|G].
  - rewrite nth_overflow by exact G. rewrite Rabs_R0. exact HA.
  - now apply within_nth.
Qed.

(** *** the ranges of N samples of numbers up to A, and the level alpha itself
    known to eps *)
Theorem C68_range_close : forall rnd F M eps A rows cols alpha alpha' j y, rounding rnd F -> accurate rnd M eps -> eps <= 1 -> 0 <= A ->
  let N := INR (length rows) in 9 + 14 * A + 12 * (A * N) + 2 * N <= M ->
  List.Forall (within A) rows -> List.Forall (fun r => length r = cols) rows ->
  0 <= alpha' <= 2 -> Rabs (alpha' - alpha) <= eps -> range_of (mkChain rows cols) alpha j y ->
  exists x, f_range_of rnd (map (map Fin) rows) cols (Fin alpha') j (Fin x) /\ Rabs (x - y) <= eps * (7 + 12 * A + 12 * (A * N)).
Proof.
  intros rnd F M eps A rows cols alpha alpha' j y H AC He1 A0 N HM W L Ha' Hal R. assert (AC' := AC). destruct AC as (He0 & AC).
  destruct (range_of_inv _ _ _ _ R) as (Ha & Hr & Hj & Ey). cbn [ch_rows ch_cols] in *.
  assert (Hr' : map (map Fin) rows <> []) by (destruct rows; [congruence|discriminate]).
  assert (NN : 0 <= N) by apply pos_INR. assert (AN : 0 <= A * N) by nra.
  destruct (range_value rnd F (map (map Fin) rows) cols alpha' H Hr' Ha') as (q1 & q2 & E1 & E2 & H1 & H2 & E).
  set (l := column j rows) in *. assert (Ll : length l = length rows) by apply column_length.
  assert (Wl : within A l) by (eapply column_within; eauto). assert (Nl : l <> []) by (intros Q; rewrite Q in Ll; destruct rows; [congruence|discriminate]).
  assert (Q1 : Rabs (q1 - alpha / 2) <= 3 * eps).
  { destruct (AC (alpha' / 2)) as (u & Eu & Hu); [apply abs_le; lra|]. rewrite E1 in Eu. injection Eu as <-. apply abs_le in Hu. apply abs_le in Hal. apply abs_le. lra. }
  assert (Q2 : Rabs (q2 - (1 - alpha / 2)) <= 3 * eps).
  { destruct (AC (alpha' / 2)) as (u & Eu & Hu); [apply abs_le; lra|]. rewrite E1 in Eu. injection Eu as <-.
    destruct (AC (1 - q1)) as (u' & Eu' & Hu'); [apply abs_le; lra|]. rewrite E2 in Eu'. injection Eu' as <-.
    apply abs_le in Hu. apply abs_le in Hu'. apply abs_le in Hal. apply abs_le. lra. }
  assert (HM' : 5 + 3 * A + 2 * INR (length l) <= M) by (rewrite Ll; fold N; lra).
  destruct (C68_quantile_close rnd F M eps A l (alpha / 2) q1 (3 * eps) H AC' He1 HM' Wl Nl ltac:(lra) H1 Q1) as (z1 & y1 & Z1 & Y1 & D1).
  destruct (C68_quantile_close rnd F M eps A l (1 - alpha / 2) q2 (3 * eps) H AC' He1 HM' Wl Nl ltac:(lra) H2 Q2) as (z2 & y2 & Z2 & Y2 & D2).
  rewrite np_quantile_Ok in Y1, Y2 by (auto; lra). injection Y1 as Y1. injection Y2 as Y2. rewrite Ll in D1, D2. fold N in D1, D2.
  assert (y = y2 - y1) as -> by (rewrite Ey; unfold range1; rewrite <- Y1, <- Y2; reflexivity).
  assert (B : - A <= y1 <= A /\ - A <= y2 <= A).
  { assert (S0 := rsort_sorted l). assert (Ws := within_sort A l Wl). assert (Ls := rsort_length l).
    assert (Np : (0 < length l)%nat) by (destruct l; [congruence|cbn; lia]).
    assert (I := fun v Hv => interp_bounds (rsort l) v S0 ltac:(rewrite Ls; exact Np) Hv). rewrite Ls in I.
    assert (X0 := within_nth A (rsort l) 0 Ws ltac:(lia)). assert (X1 := within_nth A (rsort l) (length l - 1) Ws ltac:(lia)).
    apply abs_le in X0. apply abs_le in X1.
    assert (I1 := I _ (virtual_range (length l) (alpha / 2) ltac:(lra))). assert (I2 := I _ (virtual_range (length l) (1 - alpha / 2) ltac:(lra))).
    rewrite <- Y1, <- Y2. lra. }
  destruct B as (B1 & B2). apply abs_le in D1. apply abs_le in D2.
  assert (EA : 0 <= eps * A <= A) by (split; nra). assert (EAN : 0 <= eps * (A * N) <= A * N) by (split; nra).
  replace (2 * A * (N * (3 * eps))) with (6 * (eps * (A * N))) in D1, D2 by ring.
  assert (X1 : eps * (3 + 6 * A) = 3 * eps + 6 * (eps * A)) by ring. rewrite X1 in D1, D2.
  destruct (AC (z2 - z1)) as (x & Ex & Hx); [apply abs_le; lra|].
  exists x. split.
  - eexists. split; [exact E|]. rewrite nth_error_map. rewrite (nth_error_nth' _ 0%nat) by (rewrite seq_length; exact Hj). rewrite seq_nth by exact Hj.
    cbn [Nat.add option_map]. rewrite (column_fin rows cols j L Hj). fold l. rewrite Z1, Z2. f_equal. exact Ex.
  - apply abs_le in Hx. apply abs_le. replace (eps * (7 + 12 * A + 12 * (A * N))) with (7 * eps + 12 * (eps * A) + 12 * (eps * (A * N))) by ring. lra.
Qed.
Print Assumptions C68_range_close.

(** *** the threshold of the credible region *)
Theorem C68_region_close : forall rnd F M eps A logpis alpha alpha' t, rounding rnd F -> accurate rnd M eps -> eps <= 1 ->
  5 + 3 * A + 2 * INR (length logpis) <= M -> within A logpis -> 0 <= alpha' <= 1 -> Rabs (alpha' - alpha) <= eps ->
  credible_region_threshold logpis alpha = Ok t ->
  exists x, f_region rnd (map Fin logpis) (Fin alpha') = Ok (Fin x) /\ Rabs (x - t) <= eps * (3 + 6 * A + 4 * (A * INR (length logpis))).
Proof.
  intros rnd F M eps A l alpha alpha' t H AC He1 HM W Ha' Hal E. assert (AC' := AC). destruct AC as (He0 & AC).
  destruct (threshold_inv _ _ _ E) as (Nl & Ha & Et).
  destruct (AC (1 - alpha')) as (q & Eq & Hq).
  { apply abs_le. assert (A0 : 0 <= A). { destruct l as [|x l]; [congruence|]. inversion W; subst. assert (Q := Rabs_pos x). lra. } assert (Q := pos_INR (length l)). lra. }
  assert (Q01 : 0 <= q <= 1).
  { assert (G0 := ro_mono _ _ H 0 (1 - alpha') ltac:(lra)). rewrite (ro_fix _ _ H 0 (ro_zero _ _ H)), Eq in G0.
    assert (G1 := ro_mono _ _ H (1 - alpha') 1 ltac:(lra)). rewrite (ro_fix _ _ H 1 (ro_one _ _ H)), Eq in G1. cbn in *. lra. }
  destruct (C68_quantile_close rnd F M eps A l (1 - alpha) q (2 * eps) H AC' He1 HM W Nl) as (z & z0 & Z & Z0 & D); [lra|exact Q01| |].
  - apply abs_le in Hq. apply abs_le in Hal. apply abs_le. lra.
  - unfold credible_region_threshold in E. rewrite Z0 in E. injection E as ->. exists z. split.
    + assert (S1 : fsub rnd (Fin 1) (Fin alpha') = Fin q) by exact Eq. unfold f_region. rewrite S1. exact Z.
    + apply Rle_trans with (1 := D). apply Req_le. ring.
Qed.
Print Assumptions C68_region_close.

(** *** without rounding: the functions on real numbers *)
Lemma fin_rounding : rounding Fin (fun _ => True).
Proof. constructor; auto; try discriminate; try reflexivity. Qed.
Lemma fin_accurate : forall M, accurate Fin M 0.
Proof. intros M. split; [lra|]. intros x _. exists x. split; [reflexivity|]. rewrite Rminus_diag_eq, Rabs_R0 by reflexivity. lra. Qed.
Lemma some_bound : forall l : list R, exists A, within A l.
Proof.
  induction l as [|x l (A & H)]; [exists 0; constructor|]. exists (Rmax (Rabs x) A). constructor; [apply Rmax_l|].
  eapply Forall_impl; [|exact H]. intros z Hz. cbn in Hz. apply Rle_trans with (1 := Hz), Rmax_r.
Qed.

Theorem C68_exact_quantile : forall a q, f_quantile Fin (map Fin a) (Fin q) = match np_quantile a q with Ok z => Ok (Fin z) | Raise e => Raise e end.
Proof.
  intros a q. destruct (Rle_dec 0 q) as [H0|H0].
  destruct (Rle_dec q 1) as [H1|H1].
  - destruct a as [|x a].
    + unfold np_quantile. destruct (Rleb_spec 0 q); [|lra]. destruct (Rleb_spec q 1); [|lra]. cbn [andb map].
      destruct (C68_defined Fin [] (Fin q)) as (_ & D & _). apply D; auto.
    + destruct (some_bound (x :: a)) as (A & W).
      destruct (C68_quantile_close Fin _ _ 0 A (x :: a) q q 0 fin_rounding (fin_accurate _) ltac:(lra) (Rle_refl _) W) as (z & z0 & E1 & E2 & D);
        [discriminate|lra|lra|rewrite Rminus_diag_eq, Rabs_R0 by reflexivity; lra|].
      rewrite E1, E2. do 2 f_equal. apply abs_le in D. lra.
  - unfold np_quantile. destruct (Rleb_spec q 1); [lra|]. rewrite andb_false_r. destruct (C68_defined Fin (map Fin a) (Fin q)) as (_ & _ & D). apply D. cbn. lra.
  - unfold np_quantile. destruct (Rleb_spec 0 q); [lra|]. cbn [andb]. destruct (C68_defined Fin (map Fin a) (Fin q)) as (_ & _ & D). apply D. cbn. lra.
Qed.
Print Assumptions C68_exact_quantile.
Theorem C68_exact : forall rows cols alpha logpis x t, List.Forall (fun r => length r = cols) rows ->
  f_range Fin (map (map Fin) rows) cols (Fin alpha) = match credible_interval_range (mkChain rows cols) alpha with Ok r => Ok (map Fin r) | Raise e => Raise e end /\
  f_region Fin (map Fin logpis) (Fin alpha) = match credible_region_threshold logpis alpha with Ok z => Ok (Fin z) | Raise e => Raise e end /\
  f_in_region (Fin x) (Fin t) = in_credible_region x t.
Proof.
  intros rows cols alpha logpis x t L. split; [|split].
  - destruct (C37_defined (mkChain rows cols) alpha) as (_ & D2 & D3). cbn [ch_rows] in *.
    destruct (Rle_dec 0 alpha) as [H0|H0]; [destruct (Rle_dec alpha 2) as [H1|H1]|].
    + destruct rows as [|r0 rows0] eqn:Er.
      { rewrite D3 by (auto; lra). apply (proj1 (proj2 (C68_ranges Fin _ [] cols alpha fin_rounding))); auto. }
      rewrite <- Er in *. assert (Hr : rows <> []) by (rewrite Er; discriminate).
      assert (Hr' : map (map Fin) rows <> []) by (rewrite Er; discriminate).
      destruct (range_value Fin _ (map (map Fin) rows) cols alpha fin_rounding Hr' (conj H0 H1)) as (q1 & q2 & E1 & E2 & _ & _ & E).
      injection E1 as <-. injection E2 as <-. rewrite E, cir_value by (auto; lra). cbn [ch_rows ch_cols]. f_equal. rewrite map_map. apply map_ext_in. intros j Hj.
      apply in_seq in Hj. rewrite (column_fin rows cols j L) by lia. rewrite !C68_exact_quantile.
      assert (NE : column j rows <> []) by (rewrite Er; discriminate).
      rewrite !np_quantile_Ok by (auto; lra). unfold fsub. cbn [fneg fadd]. f_equal.
    + rewrite D2 by lra. unfold f_range. cbn [fdiv]. destruct (Req_EM_T 2 0); [lra|]. unfold f_quantiles, f_valid. cbn [fleb].
      destruct (Rle_dec (alpha / 2) 1); [lra|]. rewrite andb_false_r. reflexivity.
    + rewrite D2 by lra. unfold f_range. cbn [fdiv]. destruct (Req_EM_T 2 0); [lra|]. unfold f_quantiles, f_valid. cbn [fleb].
      destruct (Rle_dec 0 (alpha / 2)); [lra|]. reflexivity.
  - unfold f_region, credible_region_threshold. apply C68_exact_quantile.
  - unfold f_in_region, in_credible_region. cbn. unfold Rleb. reflexivity.
Qed.
Print Assumptions C68_exact.
