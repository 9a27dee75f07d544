(** C52, continued: the weak lensing script. *)
From Coq Require Import List ZArith Lia Bool Reals Lra String Sorted Permutation.
From Coquelicot Require Import Coquelicot.
From Verif Require Import PyBase PyBaseFacts CVec RSort Utils UtilsSpec UtilsProof P_Utils Prior PriorProof Measure MeasSpec MeasProof P_Meas Forward FwdProof Mcmc Uncertainty UncProof
  Plotting P_Unc P_Plot P_Mcmc ExpSpec ExpProof P_ExpLens ExpPlot ExpPlotSpec P_ExpPlot P_ExpPlotB.
Import ListNotations.
Open Scope R_scope.
Notation length := List.length.

(** ** Vocabulary *)

(** pixel p is at least 20 degrees away from the equator and from the galactic
    plane *)
Definition shown_pixel (L : nat) (gal_b : R -> R -> R) (p : nat) : Prop :=
  let theta := degrees (nth (p / (2 * L - 1)) (mw_thetas L) 0) in
  let phi := degrees (nth (p mod (2 * L - 1)) (mw_phis L) 0) in
  20 <= Rabs (90 - theta) /\ 20 <= Rabs (gal_b (phi - 180) (theta - 90)).
(** vis marks the visible pixels: all of them with --no-mask *)
Definition visible (no_mask : bool) (L : nat) (gal_b : R -> R -> R) (vis : list bool) : Prop :=
  length vis = (L * (2 * L - 1))%nat /\
  forall p, (p < L * (2 * L - 1))%nat -> (nth p vis false = true <-> no_mask = true \/ shown_pixel L gal_b p).
(** some pixel is overwritten with NaN *)
Definition holes (L : nat) (vis : list bool) : Prop := (256 <= L)%nat /\ In false vis.
(** v with the hidden pixels replaced by NaN, which happens from L = 256 on *)
Definition blanked (L : nat) (vis : list bool) (v : vec) (vn : list (option C)) : Prop :=
  length vn = length v /\ forall p, (p < length v)%nat ->
    nth p vn None = (if Nat.ltb L 256 then Some (nth p v (RtoC 0)) else if nth p vis false then Some (nth p v (RtoC 0)) else None).
(** real part of the difference *)
Definition real_difference (t v d : vec) : Prop :=
  length d = length t /\ forall p, (p < length d)%nat -> nth p d (RtoC 0) = RtoC (Re (nth p t (RtoC 0)) - Re (nth p v (RtoC 0))).
(** the largest magnitude on the visible pixels, at most 100 *)
Definition lens_limit (vis : list bool) (d : vec) (c : C) : Prop :=
  exists r, largest_magnitude (map2 (fun z (b : bool) => if b then z else RtoC 0) d vis) r /\ c = RtoC (Rmin r 100).
Definition visible_part (vis : list bool) (v : vec) : vec := map fst (filter snd (combine v vis)).

Section Report.
Variables rfwd rinv : nat -> vec -> vec.
Variable S : ssht.
Variable gal_b : R -> R -> R.

(** the output of a complete run of weaklensing/plot.py *)
Definition lensing_report (inv fwd : vec -> res vec) (truth : cmap) (a : plot_args) (f : results) (outs : list output) : Prop :=
  let L := rs_L f in let npix := (L * (2 * L - 1))%nat in let t := cm_buf truth in
  let H := Nat.max L 256 in
  exists setting evo MAP wv rows ci mean vis hvis MAPn diff diffn dm vD cm dM dd dci dmean ddm w obs eM pm em,
    let args := fun vmin vmax => mkArgs vmin vmax (Nat.ltb L 256) false (Some (Plotting.mkMask H (2 * H - 1) (map negb hvis))) in
    rs_setting f = Some setting /\ plot_evolution (rs_logpi f) = Ok evo /\
    estimates (fun z => z) setting inv fwd (pa_burn a) f MAP wv rows /\ full_shape truth L /\ rows <> [] /\
    visible (pa_no_mask a) L gal_b vis /\ visible (pa_no_mask a) H gal_b hvis /\
    ranges_of npix rows (1 / 20) (map Re ci) /\ average_of npix rows mean /\
    real_difference t MAP diff /\ real_difference t mean dm /\
    (** MAP and the difference lose their hidden pixels, the mean does not *)
    blanked L vis MAP MAPn /\ blanked L vis diff diffn /\
    (holes L vis -> vD = None) /\ (~ holes L vis -> exists c, lens_limit vis diff c /\ vD = Some c) /\ lens_limit vis dm cm /\
    drawn rfwd rinv L MAP (args None None) dM /\ drawn rfwd rinv L (magnitudes diff) (args (Some (RtoC 0)) vD) dd /\
    drawn rfwd rinv L (map (fun z => RtoC (Re z)) ci) (args (Some (RtoC 0)) None) dci /\
    drawn rfwd rinv L (map (fun z => RtoC (Re z)) mean) (args None None) dmean /\
    drawn rfwd rinv L (magnitudes dm) (args (Some (RtoC 0)) (Some cm)) ddm /\
    (** predictions: unit weights on the visible pixels *)
    WL_init (Z.of_nat L) (Some (Measure.mkMask [L; (2 * L - 1)%nat] vis)) None = Ok w /\ WL_forward S w t = Ok obs /\
    (holes L vis -> eM = None) /\ (~ holes L vis -> exists pM e, WL_forward S w MAP = Ok pM /\ relative_error obs pM e /\ eM = Some e) /\
    WL_forward S w mean = Ok pm /\ relative_error obs pm em /\
    outs = [OEvolution (file_name a "evolution" "png") evo; OMap (file_name a "MAP" "png") false dM;
            OMap (file_name a "diff" "png") (match vD with None => true | Some _ => false end) dd;
            OSample (file_name a "MAP_wvlt" "png") (map Re wv, map Im wv);
            OMap (file_name a "ci_map" "png") false dci; OMap (file_name a "mean" "png") false dmean; OMap (file_name a "diffmean" "png") false ddm;
            prints "MAP SNR" (snr (visible_part vis t) (visible_part vis diff)); prints "Mean SNR" (snr (visible_part vis t) (visible_part vis dm));
            OPrint "MAP R2E" eM; prints "Mean R2E" em] ++
           (if pa_npy a then [saves (file_name a "mean" "npy") mean; ONpy (file_name a "MAP" "npy") MAPn; saves (file_name a "CI" "npy") ci;
                              ONpy (file_name a "diff" "npy") diffn; saves (file_name a "diff_mean" "npy") dm] else []).
End Report.

(** ** The mask *)
Lemma plot_mask_visible : forall positions gal_b no_mask L, positions L = (mw_thetas L, mw_phis L) -> visible no_mask L gal_b (plot_mask positions gal_b no_mask L).
Proof.
  intros positions gal_b no_mask L HP. unfold plot_mask, visible. destruct no_mask.
  - split; [apply repeat_length|]. intros p Hp. rewrite nth_repeat_in by exact Hp. split; auto.
  - rewrite HP. cbn [fst snd]. set (m := build_mask L (mw_thetas L) (mw_phis L) gal_b 20).
    assert (T : table m L (2 * L - 1)) by apply mask_table. assert (LC := length_concat_table _ _ _ T). split; [rewrite map_length; exact LC|].
    intros p Hp. rewrite (nth_map_in _ _ _ _ 0) by lia.
    assert (Hi : (p / (2 * L - 1) < L)%nat) by (apply Nat.div_lt_upper_bound; lia).
    assert (Hj : (p mod (2 * L - 1) < 2 * L - 1)%nat) by (apply Nat.mod_upper_bound; lia).
    assert (Ep : (p = p / (2 * L - 1) * (2 * L - 1) + p mod (2 * L - 1))%nat) by (rewrite Nat.mul_comm; apply Nat.div_mod; lia).
    assert (EN : nth p (List.concat m) 0 = cell m (p / (2 * L - 1)) (p mod (2 * L - 1)))
           by (rewrite <- (nth_concat_table m L (2 * L - 1)) by auto; rewrite <- Ep; reflexivity).
    rewrite EN. destruct (build_mask_entry L gal_b 20 (p / (2 * L - 1)) (p mod (2 * L - 1)) Hi Hj) as (V & Z). fold m in V, Z. unfold cell, shown_pixel.
    destruct (Req_EM_T _ 0) as [N|N]; rewrite Z in N.
    + split; [discriminate|]. intros [Q|(B1 & B2)]; [discriminate|]. destruct N; lra.
    + split; [intros _; right|reflexivity]. split.
      * destruct (Rle_lt_dec 20 (Rabs (90 - degrees (nth (p / (2 * L - 1)) (mw_thetas L) 0)))); auto. exfalso; apply N; auto.
      * destruct (Rle_lt_dec 20 (Rabs (gal_b (degrees (nth (p mod (2 * L - 1)) (mw_phis L) 0) - 180) (degrees (nth (p / (2 * L - 1)) (mw_thetas L) 0) - 90)))); auto.
        exfalso; apply N; auto.
Qed.

(** every visible pixel was observed, but not conversely: the mask of the run is
    10 degrees wide, that of the plots 20 *)
Theorem C52_lensing_mask : forall L gal_b p, shown_pixel L gal_b p -> in_survey L gal_b p.
Proof. intros L gal_b p (A & B). split; eapply Rle_trans; [|exact A| |exact B]; lra. Qed.
Print Assumptions C52_lensing_mask.
Theorem C52_lensing_mask_refuted : exists L gal_b p, (p < L * (2 * L - 1))%nat /\ in_survey L gal_b p /\ ~ shown_pixel L gal_b p.
Proof.
  exists 4%nat, (fun _ _ => 90), 7%nat. split; [cbn; lia|].
  assert (T : degrees (nth (7 / (2 * 4 - 1)) (mw_thetas 4) 0) = 540 / 7).
  { change (7 / (2 * 4 - 1))%nat with 1%nat. unfold mw_thetas. cbn [seq map nth]. unfold degrees. simpl INR. field. apply PI_neq0. }
  unfold in_survey, shown_pixel. rewrite T. rewrite !(Rabs_right (90 - 540 / 7)) by lra. rewrite !(Rabs_right 90) by lra. split; [lra|]. intros (A & _). lra.
Qed.
Print Assumptions C52_lensing_mask_refuted.

(** with the mask on, a pixel near the equator is hidden for every L >= 3 *)
Lemma mask_hides : forall L gal_b vis, (3 <= L)%nat -> visible false L gal_b vis -> In false vis.
Proof.
  intros L gal_b vis HL (Lv & Hv). set (i := ((L - 1) / 2)%nat). set (n := (2 * L - 1)%nat).
  assert (Hi : (i < L)%nat) by (unfold i; apply Nat.div_lt_upper_bound; lia).
  assert (Di := Nat.div_mod (L - 1) 2 ltac:(lia)). fold i in Di. assert (Mi := Nat.mod_upper_bound (L - 1) 2 ltac:(lia)).
  assert (Hp : (i * n < L * n)%nat) by (apply Nat.mul_lt_mono_pos_r; unfold n; lia).
  destruct (nth (i * n) vis false) eqn:E; [exfalso|rewrite <- E; apply nth_In; rewrite Lv; exact Hp].
  apply (Hv (i * n)%nat Hp) in E. destruct E as [E|(A & _)]; [discriminate|].
  fold n in A. rewrite Nat.div_mul in A by (unfold n; lia). unfold mw_thetas in A. rewrite (nth_map_in _ _ _ _ 0%nat) in A by (rewrite seq_length; exact Hi).
  rewrite seq_nth in A by exact Hi. cbn [Nat.add] in A. unfold degrees in A.
  assert (Nn : 5 <= INR (2 * L - 1)) by (replace 5 with (INR 5) by (simpl; lra); apply le_INR; lia).
  replace (INR (2 * i + 1) * PI / INR (2 * L - 1) * 180 / PI) with (INR (2 * i + 1) * 180 / INR (2 * L - 1)) in A by (field; repeat split; first [apply PI_neq0|lra]).
  assert (B : -1 <= 2 * INR (2 * i + 1) - INR (2 * L - 1) <= 1).
  { rewrite <- (mult_INR 2 (2 * i + 1)) || idtac. assert (H1 : (2 * (2 * i + 1) <= (2 * L - 1) + 1)%nat) by lia. assert (H2 : (2 * L - 1 <= 2 * (2 * i + 1) + 1)%nat) by lia.
    apply le_INR in H1, H2. rewrite plus_INR, mult_INR in H1, H2. simpl (INR 2) in H1, H2. simpl (INR 1) in H1, H2. lra. }
  assert (Q : Rabs (90 - INR (2 * i + 1) * 180 / INR (2 * L - 1)) <= 18).
  { replace (90 - INR (2 * i + 1) * 180 / INR (2 * L - 1)) with (90 * (INR (2 * L - 1) - 2 * INR (2 * i + 1)) / INR (2 * L - 1)) by (field; lra).
    apply Rabs_le. split; apply Rmult_le_reg_r with (INR (2 * L - 1)); try lra; unfold Rdiv; rewrite (Rmult_assoc _ (/ _)), Rinv_l, Rmult_1_r by lra; nra. }
  lra.
Qed.

(** ** Complex quantiles *)
Lemma cinsert_perm : forall z l, Permutation (z :: l) (cinsert z l).
Proof. induction l as [|y l IH]; [constructor; constructor|]. cbn [cinsert]. destruct (clex_ltb y z); [|apply Permutation_refl]. eapply perm_trans; [apply perm_swap|]. constructor. exact IH. Qed.
Lemma csort_perm : forall l, Permutation l (csort l).
Proof. induction l as [|z l IH]; [constructor|]. unfold csort in *. cbn [fold_right]. eapply perm_trans; [constructor; exact IH|]. apply cinsert_perm. Qed.
Lemma cinsert_sorted : forall z l, Sorted Rle (map fst l) -> Sorted Rle (map fst (cinsert z l)).
Proof.
  induction l as [|y l IH]; intros S; [repeat constructor|]. cbn [cinsert]. inversion S as [|? ? S' H]; subst. destruct (clex_ltb y z) eqn:E.
  - cbn [map]. constructor; [apply IH; exact S'|]. apply clex_ltb_fst in E. destruct l as [|x l]; cbn [cinsert map]; [apply HdRel_cons; exact E|].
    destruct (clex_ltb x z); cbn [map]; constructor; [inversion H; subst; assumption|exact E].
  - apply clex_ltb_fst_false in E. cbn [map]. constructor; [exact S|]. constructor. exact E.
Qed.
Lemma csort_real : forall l, map fst (csort l) = rsort (map fst l).
Proof.
  intros l. apply sorted_perm_eq.
  - induction l as [|z l IH]; [constructor|]. unfold csort in *. cbn [fold_right]. apply cinsert_sorted. exact IH.
  - apply rsort_sorted.
  - eapply perm_trans; [|apply rsort_perm]. apply Permutation_sym, Permutation_map, csort_perm.
Qed.
Lemma lerp_real : forall (a b : C) t, fst (a + (b - a) * RtoC t)%C = fst a + (fst b - fst a) * t.
Proof. intros [a1 a2] [b1 b2] t. unfold Cplus, Cminus, Cmult, Copp, RtoC, Cplus. cbn [fst snd]. ring. Qed.
Lemma cquantile_real : forall l q, l <> [] -> exists z, cquantile l q = Ok z /\ fst z = interp (rsort (map fst l)) (q * INR (length (map fst l) - 1)).
Proof.
  intros l q NE. unfold cquantile. destruct l as [|x l'] eqn:El; [congruence|]. rewrite <- El in *. eexists. split; [reflexivity|]. unfold interp. cbv zeta.
  rewrite map_length, <- csort_real. rewrite map_length. set (s := csort l).
  assert (Q : forall i, nth i (map fst s) 0 = fst (nth i s (RtoC 0))) by (intros i; change 0 with (fst (RtoC 0)) at 1; apply map_nth). rewrite !Q.
  rewrite lerp_real. reflexivity.
Qed.
(** the real part of the complex range is the range of the real parts *)
Theorem C52_complex_range : forall npix rows, rows <> [] -> exists ci, complex_range npix rows = Ok ci /\ ranges_of npix rows (1 / 20) (map Re ci).
Proof.
  intros npix rows NE. set (ch := mkChain (map (map fst) rows) npix). destruct (C37_defined ch (1 / 20)) as (D & _).
  destruct D as (r & Er & Lr); [cbn; destruct rows; [congruence|discriminate]|lra|]. assert (Rg : ranges_of npix rows (1 / 20) r) by (apply ranges_of_cir; [exact Er|exact NE|lra]).
  set (col := fun p => map (fun r : vec => nth p r (RtoC 0)) rows).
  assert (G : forall q, exists g : nat -> C, forall p, cquantile (col p) q = Ok (g p) /\ fst (g p) = interp (rsort (map fst (col p))) (q * INR (length (map fst (col p)) - 1))).
  { intros q. exists (fun p => match cquantile (col p) q with Ok z => z | Raise _ => RtoC 0 end). intros p.
    destruct (cquantile_real (col p) q) as (z & -> & Q); [unfold col; destruct rows; [congruence|discriminate]|]. auto. }
  destruct (G (5 / 100 / 2)) as (lo & Hlo). destruct (G (1 - 5 / 100 / 2)) as (hi & Hhi).
  exists (map (fun p => hi p - lo p)%C (seq 0 npix)). split.
  - unfold complex_range. apply rseq_map_Ok. intros p _. cbv zeta. fold (col p). rewrite (proj1 (Hlo p)). cbn [rbind]. rewrite (proj1 (Hhi p)). reflexivity.
  - replace (map Re (map (fun p => hi p - lo p)%C (seq 0 npix))) with r; [exact Rg|].
    assert (Hcol : forall p, column p (ch_rows ch) = map fst (col p)).
    { intros p. unfold column, ch, col. cbn [ch_rows]. rewrite !map_map. apply map_ext. intros v. change 0 with (fst (RtoC 0)) at 1. apply map_nth. }
    unfold credible_interval_range, np_quantiles in Er. destruct (_ && _)%bool; [|discriminate]. destruct (ch_rows ch) as [|x xs] eqn:Ech; [discriminate|]. rewrite <- Ech in *.
    rewrite (rseq_map_Ok _ (fun j => fst (lo j))) in Er.
    2:{ intros j _. rewrite np_quantile_Ok, Hcol; [rewrite (proj2 (Hlo j)); do 3 f_equal; field|rewrite Hcol; unfold col; destruct rows; [congruence|discriminate]|lra]. }
    cbn [rbind] in Er. rewrite (rseq_map_Ok _ (fun j => fst (hi j))) in Er.
    2:{ intros j _. rewrite np_quantile_Ok, Hcol; [rewrite (proj2 (Hhi j)); do 3 f_equal; field|rewrite Hcol; unfold col; destruct rows; [congruence|discriminate]|lra]. }
    cbn [rbind fst snd] in Er. apply Ok_inj in Er. rewrite <- Er. cbn [ch ch_cols]. rewrite map_map. generalize (seq 0 npix). clear.
    induction l as [|p l IH]; [reflexivity|]. cbn [map map2]. rewrite IH. f_equal.
Qed.
Print Assumptions C52_complex_range.

(** ** Arrays with NaN *)
(** v with the hidden pixels blanked unless [over] *)
Definition blk (over : bool) (v : vec) (vis : list bool) : list (option C) := map2 (fun z b => if (over || b)%bool then Some z else None) v vis.
Lemma blk_length : forall over v vis, length v = length vis -> length (blk over v vis) = length v.
Proof. intros. unfold blk. apply map2_length. assumption. Qed.
Lemma blk_over : forall v vis, length v = length vis -> blk true v vis = map Some v.
Proof. induction v as [|z v IH]; intros [|b vis] H; try discriminate; [reflexivity|]. injection H as H. unfold blk in *. cbn. rewrite IH by exact H. reflexivity. Qed.
Lemma blk_mask : forall v vis, length v = length vis -> map2 (fun z (b : bool) => if b then None else Some z) v (map negb vis) = blk false v vis.
Proof. induction v as [|z v IH]; intros [|b vis] H; try discriminate; [reflexivity|]. injection H as H. unfold blk in *. cbn. rewrite IH by exact H. destruct b; reflexivity. Qed.
Lemma blk_map : forall g over v vis, map (option_map g) (blk over v vis) = blk over (map g v) vis.
Proof. intros g over. unfold blk. induction v as [|z v IH]; intros [|b vis]; try reflexivity. cbn. rewrite IH. destruct (over || b)%bool; reflexivity. Qed.
Lemma blk_sub : forall over t v vis, length t = length v -> length v = length vis -> nan_real (nan_sub t (blk over v vis)) = blk over (map2 (fun x y : C => RtoC (fst x - fst y)) t v) vis.
Proof.
  intros over. unfold nan_real, nan_sub, blk. induction t as [|x t IH]; intros [|z v] [|b vis] H1 H2; try discriminate; [reflexivity|].
  injection H1 as H1. injection H2 as H2. cbn. rewrite IH by auto. destruct (over || b)%bool; reflexivity.
Qed.
Lemma blk_times : forall over d vis, map2 (fun o (b : bool) => option_map (fun z => z * RtoC (if b then 1 else 0))%C o) (blk over d vis) vis =
  blk over (map2 (fun z (b : bool) => if b then z else RtoC 0) d vis) vis.
Proof.
  intros over. unfold blk. induction d as [|z d IH]; intros [|b vis]; try reflexivity. cbn. rewrite IH. destruct over, b; cbn; try reflexivity; f_equal; f_equal; ring.
Qed.
Lemma blk_select : forall over v vis, length v = length vis -> select vis (blk over v vis) = map Some (select vis v).
Proof.
  intros over. unfold blk. induction v as [|z v IH]; intros [|b vis] H; try discriminate; [reflexivity|]. injection H as H. cbn. destruct b; rewrite ?orb_true_r; cbn; rewrite IH by exact H; reflexivity.
Qed.
Lemma no_nan_some : forall v, no_nan (map Some v) = Some v.
Proof. induction v as [|z v IH]; [reflexivity|]. cbn. rewrite IH. reflexivity. Qed.
Lemma no_nan_blk : forall over v vis, length v = length vis ->
  (over = false /\ In false vis -> no_nan (blk over v vis) = None) /\ (~ (over = false /\ In false vis) -> no_nan (blk over v vis) = Some v /\ blk over v vis = map Some v).
Proof.
  intros over v vis H. destruct over; [split; [intros (Q & _); discriminate|intros _; rewrite blk_over by exact H; split; [apply no_nan_some|reflexivity]]|].
  split.
  - intros (_ & I). revert v H. induction vis as [|b vis IH]; intros [|z v] H; try discriminate; [contradiction|]. injection H as H.
    change (blk false (z :: v) (b :: vis)) with ((if b then Some z else None) :: blk false v vis). destruct I as [->|I]; [reflexivity|].
    destruct b; [|reflexivity]. cbn [no_nan]. rewrite (IH I v H). reflexivity.
  - intros N. assert (B : blk false v vis = map Some v).
    { revert v H. induction vis as [|b vis IH]; intros [|z v] H; try discriminate; [reflexivity|]. injection H as H.
      change (blk false (z :: v) (b :: vis)) with ((if b then Some z else None) :: blk false v vis). destruct b.
      - cbn [map]. rewrite IH; auto. intros (_ & I). apply N. split; [reflexivity|right; exact I].
      - exfalso. apply N. split; [reflexivity|left; reflexivity]. }
    rewrite B. split; [apply no_nan_some|reflexivity].
Qed.
Lemma visible_part_select : forall vis v, length v = length vis -> select vis v = visible_part vis v.
Proof. unfold visible_part. induction vis as [|b vis IH]; intros [|z v] H; try discriminate; [reflexivity|]. injection H as H. cbn. destruct b; cbn; rewrite IH by exact H; reflexivity. Qed.
Lemma holes_ltb : forall L vis, holes L vis <-> (Nat.ltb L 256 = false /\ In false vis).
Proof. intros. unfold holes. rewrite Nat.ltb_ge. reflexivity. Qed.
Lemma blk_blanked : forall L vis v, length v = length vis -> blanked L vis v (blk (Nat.ltb L 256) v vis).
Proof.
  intros L vis v H. split; [apply blk_length; exact H|]. intros p Hp. unfold blk. rewrite (nth_map2 _ _ _ _ (RtoC 0) false) by lia.
  destruct (Nat.ltb L 256); reflexivity.
Qed.
Lemma real_difference_intro : forall t v, length t = length v -> real_difference t v (map2 (fun x y : C => RtoC (fst x - fst y)) t v).
Proof.
  intros t v H. assert (Lm : length (map2 (fun x y : C => RtoC (fst x - fst y)) t v) = length t) by (apply map2_length; exact H). split; [exact Lm|].
  intros p Hp. rewrite Lm in Hp. rewrite (nth_map2 _ _ _ _ (RtoC 0) (RtoC 0)) by lia. reflexivity.
Qed.
Lemma real_of_sub : forall t v, real_of (map2 Cminus t v) = map2 (fun x y : C => RtoC (fst x - fst y)) t v.
Proof. unfold real_of. induction t as [|x t IH]; intros [|y v]; try reflexivity. cbn. rewrite IH. reflexivity. Qed.
Lemma map2_reals : forall t v z, In z (map2 (fun x y : C => RtoC (fst x - fst y)) t v) -> snd z = 0.
Proof. intros t v z I. apply In_map2 in I. destruct I as (x & y & _ & _ & ->). reflexivity. Qed.

(** the colour limit *)
Lemma masked_cbar_ok : forall over d vis c, length d = length vis -> (forall z, In z d -> snd z = 0) -> masked_cbar (blk over d vis) vis = Ok c ->
  (over = false /\ In false vis -> c = None) /\ (~ (over = false /\ In false vis) -> exists r, lens_limit vis d r /\ c = Some r).
Proof.
  intros over d vis c H Hr E. unfold masked_cbar in E. rewrite blk_times in E. set (d' := map2 (fun z (b : bool) => if b then z else RtoC 0) d vis) in *.
  assert (H' : length d' = length vis) by (unfold d'; rewrite map2_length; exact H).
  destruct (no_nan_blk over d' vis H') as (N1 & N2). split.
  - intros Q. rewrite (N1 Q) in E. apply Ok_inj in E. auto.
  - intros Q. destruct (N2 Q) as (Q1 & _). rewrite Q1 in E. destruct (cbar_end d') as [r|] eqn:Er; cbn [rbind] in E; [|discriminate]. apply Ok_inj in E.
    apply C52_cbar in Er; [|intros z I; unfold d' in I; apply In_map2 in I; destruct I as (x & b & Ix & _ & ->); destruct b; [auto|reflexivity]].
    destruct Er as (r' & -> & Lr). rewrite cap100_value in E. exists (RtoC (Rmin r' 100)). split; [exists r'; auto|auto].
Qed.
Lemma masked_cbar_exists : forall over d vis, length d = length vis -> d <> [] -> exists c, masked_cbar (blk over d vis) vis = Ok c.
Proof.
  intros over d vis H NE. unfold masked_cbar. rewrite blk_times. destruct (no_nan (blk over _ vis)) as [v|] eqn:En; [|eauto].
  destruct (cbar_end_exists v) as (c & Ec); [|rewrite Ec; cbn [rbind]; eauto]. intros ->. destruct d as [|z d]; [congruence|]. destruct vis as [|b vis]; [discriminate|].
  unfold blk in En. cbn in En. destruct (over || b)%bool; [|discriminate]. destruct (no_nan _); discriminate.
Qed.

(** the drawing of an array with NaN *)
Definition hidden_at (L : nat) (hvis : list bool) : Plotting.bmask := let H := Nat.max L 256 in Plotting.mkMask H (2 * H - 1) (map negb hvis).
Definition lens_args (L : nat) (hvis : list bool) (vmin vmax : option C) : map_args := mkArgs vmin vmax (Nat.ltb L 256) false (Some (hidden_at L hvis)).
Lemma plot_map_blanked : forall rf ri L v hvis vmin vmax vis p, length v = length vis -> ((256 <= L)%nat -> hvis = vis) ->
  plot_map rf ri (mkCMap L (2 * L - 1) v) (lens_args L hvis vmin vmax) = Ok p -> snd p = blk (Nat.ltb L 256) v vis /\ (L <? 256 = false -> dr_pixels (fst p) = blk false v vis)%nat.
Proof.
  intros rf ri L v hvis vmin vmax vis p Hl Hv E. unfold plot_map, lens_args in E. cbn [ma_oversample ma_centre0 ma_vmin ma_vmax ma_mask rbind cm_rows cm_buf] in E.
  destruct (Nat.ltb_spec L 256) as [B|B].
  - destruct (oversample rf ri _ 256) as [o|]; cbn [rbind] in E; [|discriminate]. destruct (apply_mask o _); cbn [rbind] in E; [|discriminate].
    apply Ok_inj in E. subst p. split; [cbn [snd]; rewrite blk_over by exact Hl; reflexivity|discriminate].
  - rewrite (Hv B) in E. cbn [rbind] in E. unfold apply_mask, hidden_at in E. cbn [bm_rows bm_cols bm_buf cm_rows cm_cols cm_buf] in E. rewrite Nat.max_l in E by exact B.
    rewrite !Nat.eqb_refl in E. cbn [andb rbind] in E. apply Ok_inj in E. subst p. cbn [snd fst dr_pixels]. rewrite blk_mask by exact Hl. auto.
Qed.
Lemma plot_map_masked_exists : forall rf ri L v hvis vmin vmax, exists p, plot_map rf ri (mkCMap L (2 * L - 1) v) (lens_args L hvis vmin vmax) = Ok p.
Proof.
  intros rf ri L v hvis vmin vmax. unfold plot_map, lens_args. cbn [ma_oversample ma_centre0 ma_vmin ma_vmax ma_mask rbind cm_rows cm_buf].
  assert (G : forall g, cm_rows g = Nat.max L 256 -> cm_cols g = (2 * Nat.max L 256 - 1)%nat -> exists px, apply_mask g (hidden_at L hvis) = Ok px).
  { intros g G1 G2. unfold apply_mask, hidden_at. cbn [bm_rows bm_cols]. rewrite G1, G2, !Nat.eqb_refl. eexists. reflexivity. }
  destruct (Nat.ltb_spec L 256) as [B|B].
  - unfold oversample. cbn [cm_rows cm_buf]. destruct (Z.ltb_spec (Z.of_nat 256 ^ 2 - Z.of_nat L ^ 2) 0) as [Q|Q]; [nia|]. cbn [rbind].
    match goal with |- context [apply_mask ?g _] => destruct (G g) as (px & ->) end; [cbn [cm_rows]; lia|cbn [cm_cols]; rewrite Nat.max_r by lia; reflexivity|]. cbn [rbind]. eauto.
  - cbn [rbind]. destruct (G (mkCMap L (2 * L - 1) v)) as (px & ->); [cbn [cm_rows]; lia|cbn [cm_cols]; rewrite Nat.max_l by lia; reflexivity|]. cbn [rbind]. eauto.
Qed.
Lemma draw_nan_ok : forall rf ri path L v hvis vis c o, length v = length vis -> ((256 <= L)%nat -> hvis = vis) ->
  exists d, drawn rf ri L v (lens_args L hvis (Some (RtoC 0)) c) d /\
    draw_nan rf ri path L (blk (Nat.ltb L 256) v vis) (lens_args L hvis (Some (RtoC 0)) c) c o =
      ((o ++ [OMap path (match c with None => true | Some _ => false end) d])%list, Ok tt).
Proof.
  intros rf ri path L v hvis vis c o Hl Hv. unfold draw_nan. cbv zeta.
  set (filled := map (fun o => match o with Some z => z | None => RtoC 0 end) (blk (Nat.ltb L 256) v vis)).
  destruct (plot_map_masked_exists rf ri L v hvis (Some (RtoC 0)) c) as ((d & after) & Ed).
  exists d. split; [exists after; exact Ed|]. rewrite sbind_slift.
  destruct (Nat.ltb L 256) eqn:B.
  - assert (F : filled = v) by (unfold filled; rewrite blk_over, map_map, map_id by exact Hl; reflexivity). rewrite F, Ed. cbv beta iota.
    rewrite blk_over, no_nan_some by exact Hl. cbn [fst]. destruct d as [d1 d2 d3 d4]. reflexivity.
  - assert (B' := B). apply Nat.ltb_ge in B'. assert (Lf : length filled = length vis) by (unfold filled; rewrite map_length, blk_length; exact Hl).
    destruct (plot_map_masked_exists rf ri L filled hvis (Some (RtoC 0)) c) as ((g & after') & Eg). rewrite Eg. cbv beta iota. cbn [fst].
    assert (Pd := proj2 (plot_map_blanked _ _ _ _ _ _ _ _ _ Hl Hv Ed) B). assert (Pg := proj2 (plot_map_blanked _ _ _ _ _ _ _ _ _ Lf Hv Eg) B). cbn [fst] in Pd, Pg.
    assert (FF : blk false filled vis = blk false v vis).
    { unfold filled. clear - Hl. revert vis Hl. unfold blk. induction v as [|z v IH]; intros [|b vis] H; try discriminate; [reflexivity|]. injection H as H. cbn. rewrite IH by exact H. destruct b; reflexivity. }
    assert (Rest : dr_L g = dr_L d /\ dr_vmin g = dr_vmin d /\ dr_vmax g = dr_vmax d).
    { revert Ed Eg. unfold plot_map, lens_args. cbn [ma_oversample ma_centre0 ma_vmin ma_vmax ma_mask rbind cm_rows cm_buf]. rewrite B. cbn [rbind].
      destruct (apply_mask (mkCMap L (2 * L - 1) v) _); cbn [rbind]; [|discriminate]. destruct (apply_mask (mkCMap L (2 * L - 1) filled) _); cbn [rbind]; [|discriminate].
      intros E1 E2. apply Ok_inj in E1, E2. injection E1 as <- _. injection E2 as <- _. auto. }
    destruct Rest as (R1 & R2 & R3). unfold lens_args. cbn [ma_oversample]. rewrite B.
    assert (PX : match no_nan (blk false v vis) with Some _ => dr_pixels g | None => map2 (fun o p => match o with None => None | Some _ => p end) (blk false v vis) (dr_pixels g) end = dr_pixels d).
    { rewrite Pd, Pg, FF. destruct (no_nan _); [reflexivity|]. generalize (blk false v vis). clear. induction l as [|x l IH]; [reflexivity|]. cbn [map2]. rewrite IH. destruct x; reflexivity. }
    rewrite PX, R1, R2, R3. destruct d as [d1 d2 d3 d4]. reflexivity.
Qed.

(** ** A complete run *)
Lemma high_max : forall L, (if Nat.ltb L 256 then 256%nat else L) = Nat.max L 256.
Proof. intros L. destruct (Nat.ltb_spec L 256); lia. Qed.
Lemma MAP_of_length : forall setting inv fwd L X M, MAP_of setting inv fwd L X = Ok M -> length (fst M) = (L * (2 * L - 1))%nat.
Proof.
  intros setting inv fwd L X M E. unfold MAP_of in E. destruct (if String.eqb setting "synthesis" then _ else _) as [mw|]; cbn [rbind] in E; [|discriminate].
  unfold as_map in E. destruct (Nat.eqb_spec (length (fst mw)) (L * (2 * L - 1))) as [H|H]; cbn [rbind] in E; [|discriminate]. apply Ok_inj in E. subst M.
  cbn [fst]. rewrite real_of_length. exact H.
Qed.
Lemma masked_cbar_some : forall d vis c, length d = length vis -> (forall z, In z d -> snd z = 0) -> masked_cbar (map Some d) vis = Ok c ->
  exists r, lens_limit vis d r /\ c = Some r.
Proof. intros d vis c H Hr E. assert (E' : masked_cbar (blk true d vis) vis = Ok c) by (rewrite blk_over by exact H; exact E). clear E. rename E' into E. destruct (masked_cbar_ok true d vis c H Hr E) as (_ & Q). apply Q. intros (Q' & _). discriminate. Qed.
(** the mean is not blanked, but its hidden pixels are not drawn either *)
Lemma draw_nan_plain : forall rf ri path L v hvis c o,
  exists d, drawn rf ri L v (lens_args L hvis (Some (RtoC 0)) c) d /\
    draw_nan rf ri path L (map Some v) (lens_args L hvis (Some (RtoC 0)) c) c o =
      ((o ++ [OMap path (match c with None => true | Some _ => false end) d])%list, Ok tt).
Proof.
  intros rf ri path L v hvis c o. unfold draw_nan. cbv zeta. rewrite map_map, map_id. rewrite no_nan_some.
  destruct (plot_map_masked_exists rf ri L v hvis (Some (RtoC 0)) c) as ((d & after) & Ed). exists d. split; [exists after; exact Ed|].
  rewrite sbind_slift, Ed. cbv beta iota. cbn [fst]. destruct d as [d1 d2 d3 d4]. reflexivity.
Qed.
Lemma r2e_ok : forall S label w obs m o o', r2e_line S label w obs m o = (o', Ok tt) ->
  exists r, o' = (o ++ [OPrint label r])%list /\ (no_nan m = None -> r = None) /\
    (forall v, no_nan m = Some v -> exists p e, WL_forward S w v = Ok p /\ relative_error obs p e /\ r = Some e).
Proof.
  intros S label w obs m o o' E. unfold r2e_line in E. destruct (no_nan m) as [v|].
  - lstep E p Hp. lstep E e He. apply emit_ok in E. exists (Some e). split; [exact E|]. split; [discriminate|]. intros v' Q. injection Q as <-.
    exists p, e. split; [exact Hp|]. split; [apply C52_relative_error; exact He|reflexivity].
  - apply emit_ok in E. exists None. split; [exact E|]. split; [reflexivity|discriminate].
Qed.

Theorem C52_lensing : forall rf ri S positions gal_b inv fwd truth a f outs, (forall L, positions L = (mw_thetas L, mw_phis L)) ->
  length (cm_buf truth) = (cm_rows truth * cm_cols truth)%nat ->
  lensing_plot rf ri S positions gal_b inv fwd truth a f [] = (outs, Ok tt) ->
  lensing_report rf ri S gal_b inv fwd truth a f outs.
Proof.
  intros rf ri S positions gal_b inv fwd truth a f outs HP Lt E. unfold lensing_plot in E. cbv zeta in E. unfold lensing_report. cbv zeta.
  set (L := rs_L f) in *. set (npix := (L * (2 * L - 1))%nat) in *. set (t := cm_buf truth) in *.
  rewrite high_max in E. set (vis := plot_mask positions gal_b (pa_no_mask a) L) in *. set (hvis := plot_mask positions gal_b (pa_no_mask a) (Nat.max L 256)) in *.
  assert (Vv : visible (pa_no_mask a) L gal_b vis) by (apply plot_mask_visible, HP).
  assert (Vh : visible (pa_no_mask a) (Nat.max L 256) gal_b hvis) by (apply plot_mask_visible, HP).
  assert (Lv : length vis = npix) by apply Vv.
  assert (Hv : (256 <= L)%nat -> hvis = vis) by (intros B; unfold hvis; rewrite Nat.max_l by exact B; reflexivity).
  change (Plotting.mkMask (Nat.max L 256) (2 * Nat.max L 256 - 1) (map negb hvis)) with (hidden_at L hvis) in *.
  assert (FA : forall x y, mkArgs x y (Nat.ltb L 256) false (Some (hidden_at L hvis)) = lens_args L hvis x y) by reflexivity. rewrite !FA in E.
  lstep E setting Hset. lstep E evo Hevo. estep E. lstep E X HX. lstep E M HM. lstep E dM HdM. estep E.
  lstep E ds0 Hds0. assert (LM := MAP_of_length _ _ _ _ _ _ HM). fold npix in LM.
  apply map_sub_difference in Hds0. destruct Hds0 as (Sh & _).
  assert (Ltn : length t = npix) by (rewrite Lt; destruct Sh as (S1 & S2); rewrite S1, S2; reflexivity).
  destruct (plot_map_blanked _ _ _ _ _ _ _ vis _ (eq_trans LM (eq_sym Lv)) Hv HdM) as (EM & _). rewrite EM in E.
  set (over := Nat.ltb L 256) in *. rewrite blk_sub in E by lia. set (diff := map2 (fun x y : C => RtoC (fst x - fst y)) t (fst M)) in *.
  assert (Ld : length diff = npix) by (unfold diff; rewrite map2_length; lia).
  assert (Rd : real_difference t (fst M) diff) by (apply real_difference_intro; congruence).
  lstep E c Hc. destruct (masked_cbar_ok over diff vis c (eq_trans Ld (eq_sym Lv)) (map2_reals t (fst M)) Hc) as (C1 & C2).
  rewrite blk_map in E. change (map (fun z => RtoC (Cmod z)) diff) with (magnitudes diff) in E.
  match type of E with sbind (draw_nan _ _ ?p _ _ _ _) _ ?o = _ => destruct (draw_nan_ok rf ri p L (magnitudes diff) hvis vis c o) as (dd & Hdd & Edd); [unfold magnitudes; rewrite map_length; exact (eq_trans Ld (eq_sym Lv))|exact Hv|] end.
  apply sbind_ok in E. destruct E as (u & o1 & E1 & E). destruct u. assert (E1' := eq_trans (eq_sym E1) Edd). apply pair_equal_spec in E1'. destruct E1' as (-> & _). clear E1. estep E.
  lstep E rows Hrows. lstep E ci Hci.
  assert (Es := estimates_ok true setting inv fwd (pa_burn a) f X M rows HX HM Hrows). cbv iota in Es.
  lstep E dci Hdci. estep E. set (mean := pix_mean npix rows) in *. lstep E dme Hdme. estep E. lstep E dm0 Hdm0.
  unfold map_sub in Hdm0. rewrite (proj1 Sh), (proj2 Sh), !Nat.eqb_refl in Hdm0. cbn [andb] in Hdm0. apply Ok_inj in Hdm0. fold t in Hdm0. subst dm0.
  rewrite real_of_sub in E. set (dm := map2 (fun x y : C => RtoC (fst x - fst y)) t mean) in *.
  assert (Lme : length mean = npix) by apply pix_mean_length.
  assert (Ldm : length dm = npix) by (unfold dm; rewrite map2_length; lia).
  assert (Rdm : real_difference t mean dm) by (apply real_difference_intro; congruence).
  lstep E cmo Hcm. destruct (masked_cbar_some dm vis cmo (eq_trans Ldm (eq_sym Lv)) (map2_reals t mean) Hcm) as (cm & Hcm' & ->).
  rewrite map_map in E. change (map (fun x => option_map (fun z => RtoC (Cmod z)) (Some x)) dm) with (map (fun x => Some (RtoC (Cmod x))) dm) in E.
  rewrite <- (map_map (fun x => RtoC (Cmod x)) Some) in E. change (map (fun z => RtoC (Cmod z)) dm) with (magnitudes dm) in E.
  match type of E with sbind (draw_nan _ _ ?p _ _ _ _) _ ?o = _ => destruct (draw_nan_plain rf ri p L (magnitudes dm) hvis (Some cm) o) as (ddm & Hddm & Eddm) end.
  apply sbind_ok in E. destruct E as (u & o1 & E1 & E). destruct u. assert (E1' := eq_trans (eq_sym E1) Eddm). apply pair_equal_spec in E1'. destruct E1' as (-> & _). clear E1.
  rewrite blk_select in E by lia. unfold snr_nan in E. rewrite no_nan_some in E. cbn [option_map] in E. estep E.
  replace (select vis (map Some dm)) with (map Some (select vis dm)) in E by (rewrite <- (blk_over dm vis), blk_select by lia; reflexivity).
  rewrite no_nan_some in E. cbn [option_map] in E. estep E. rewrite !visible_part_select in E by lia.
  lstep E w Hw. lstep E obs Hobs.
  apply sbind_ok in E. destruct E as (u & o1 & E1 & E). destruct u. apply r2e_ok in E1. destruct E1 as (eM & -> & M1 & M2).
  apply sbind_ok in E. destruct E as (u & o1 & E1 & E). destruct u. apply r2e_ok in E1. destruct E1 as (em & -> & _ & M3).
  destruct (M3 mean (no_nan_some mean)) as (pm & e & Hpm & Hem & ->).
  destruct (no_nan_blk over (fst M) vis (eq_trans LM (eq_sym Lv))) as (NB1 & NB2).
  assert (HL : (1 <= L)%nat).
  { destruct L as [|n]; [|lia]. exfalso. unfold WL_init, WLH_init in Hw. cbn in Hw. discriminate. }
  assert (NE : rows <> []).
  { intros ->. unfold complex_range in Hci. destruct npix as [|n] eqn:En; [unfold npix in En; nia|]. cbn in Hci. discriminate. }
  destruct (C52_complex_range npix rows NE) as (ci' & Eci & Rci). rewrite Hci in Eci. apply Ok_inj in Eci. subst ci'.
  exists setting, evo, (fst M), (snd M), rows, ci, mean, vis, hvis, (blk over (fst M) vis), diff, (blk over diff vis), dm, c, cm, (fst dM), dd, (fst dci), (fst dme), ddm, w, obs, eM, pm, e.
  split; [unfold key_setting in Hset; destruct (rs_setting f); [apply Ok_inj in Hset; subst; reflexivity|discriminate]|].
  split; [reflexivity|]. split; [exact Es|]. split; [exact Sh|]. split; [exact NE|]. split; [exact Vv|]. split; [exact Vh|]. split; [exact Rci|].
  split; [apply C52_mean; exact NE|]. split; [exact Rd|]. split; [exact Rdm|].
  split; [apply blk_blanked; lia|]. split; [apply blk_blanked; lia|].
  split; [intros Hh; apply C1, holes_ltb, Hh|]. split; [intros Hh; apply C2; intros Q; apply Hh, holes_ltb, Q|]. split; [exact Hcm'|].
  split; [apply drawn_intro; exact HdM|]. split; [exact Hdd|]. split; [apply drawn_intro; exact Hdci|]. split; [apply drawn_intro; exact Hdme|]. split; [exact Hddm|].
  split; [exact Hw|]. split; [exact Hobs|].
  split; [intros Hh; apply M1, NB1, holes_ltb, Hh|].
  split; [intros Hh; apply M2, NB2; intros Q; apply Hh, holes_ltb, Q|].
  split; [exact Hpm|]. split; [exact Hem|].
  unfold save_arrays in E. destruct (pa_npy a).
  - estep E. estep E. estep E. estep E. apply emit_ok in E. rewrite E. rewrite <- !app_assoc. reflexivity.
  - apply sret_ok in E. destruct E as (-> & _). rewrite <- !app_assoc. reflexivity.
Qed.
Print Assumptions C52_lensing.

(** what the errors compare: the shear of the visible pixels *)
Theorem C52_lensing_shear : forall S L gal_b nm vis w kappa s, visible nm L gal_b vis -> (1 <= L)%nat ->
  WL_init (Z.of_nat L) (Some (Measure.mkMask [L; (2 * L - 1)%nat] vis)) None = Ok w -> shear_of S L kappa s ->
  WL_forward S w kappa = Ok (visible_part vis s).
Proof.
  intros S L gal_b nm vis w kappa s (Lv & _) HL Hw (Lk & Ls & h & klm & glm & Hh & Hk & Hg & Hs).
  assert (M : map_mask L (the_mask L (Some (Measure.mkMask [L; (2 * L - 1)%nat] vis)))) by (split; [reflexivity|exact Lv]).
  assert (HG : forall (s0 : list nat) (g : list R), None = Some (s0, g) -> s0 = [L; (2 * L - 1)%nat] /\ length g = (L * (2 * L - 1))%nat) by discriminate.
  destruct (C32_construction L _ None HL M HG) as (w' & E' & _ & _ & EB & _). rewrite Hw in E'. apply Ok_inj in E'. subst w'.
  rewrite Hh in EB. apply Ok_inj in EB. subst h.
  rewrite (C32_forward S L _ None w kappa klm s Hw HL M HG Lk Hk); [|rewrite Hg; exact Hs|exact Ls]. cbn [the_mask b_bits]. f_equal.
  rewrite <- visible_part_select by congruence. rewrite (select_spec vis s (RtoC 0)) by congruence. apply map_ext. intros p. apply Cmult_1_l.
Qed.
Print Assumptions C52_lensing_shear.

(** ** Where NaN comes out *)
Lemma visible_all : forall L gal_b vis, visible true L gal_b vis -> ~ In false vis.
Proof.
  intros L gal_b vis (Lv & Hv) I. apply (In_nth _ _ true) in I. destruct I as (p & Hp & Ep). rewrite Lv in Hp.
  assert (Q := proj2 (Hv p Hp) (or_introl eq_refl)). rewrite (nth_indep _ false true) in Q by lia. congruence.
Qed.
(** With the mask and L >= 256 the MAP error is NaN and the difference map has no
    colour range: plot_map has written NaN into MAP.  Otherwise both are numbers.
    The mean is never affected. *)
Theorem C52_lensing_nan : forall rf ri S positions gal_b inv fwd truth a f outs, (forall L, positions L = (mw_thetas L, mw_phis L)) ->
  length (cm_buf truth) = (cm_rows truth * cm_cols truth)%nat ->
  lensing_plot rf ri S positions gal_b inv fwd truth a f [] = (outs, Ok tt) ->
  ((256 <= rs_L f)%nat /\ pa_no_mask a = false -> In (OPrint "MAP R2E" None) outs /\ (forall e, ~ In (OPrint "MAP R2E" (Some e)) outs) /\
     exists d, In (OMap (file_name a "diff" "png") true d) outs) /\
  ((rs_L f < 256)%nat \/ pa_no_mask a = true -> (forall label, ~ In (OPrint label None) outs) /\ (exists e, In (OPrint "MAP R2E" (Some e)) outs) /\
     exists c d, In (OMap (file_name a "diff" "png") false d) outs /\ dr_vmax d = Some c) /\
  exists e, In (OPrint "Mean R2E" (Some e)) outs.
Proof.
  intros rf ri S positions gal_b inv fwd truth a f outs HP Lt E. apply C52_lensing in E; [|exact HP|exact Lt].
  destruct E as (setting & evo & MAP & wv & rows & ci & mean & vis & hvis & MAPn & diff & diffn & dm & vD & cm & dM & dd & dci & dmean & ddm & w & obs & eM & pm & em & E).
  cbv zeta in E. destruct E as (_ & _ & _ & _ & _ & Vv & _ & _ & _ & _ & _ & _ & _ & D1 & D2 & _ & _ & Hdd & _ & _ & _ & _ & _ & M1 & M2 & _ & _ & ->).
  split; [|split].
  - intros (HL & Hm). rewrite Hm in Vv. assert (HH : holes (rs_L f) vis) by (split; [exact HL|eapply mask_hides; [|exact Vv]; lia]).
    rewrite (D1 HH), (M1 HH). split; [apply in_or_app; left; do 9 right; left; reflexivity|]. split.
    + intros e I. apply in_app_or in I. destruct I as [I|I].
      * repeat (destruct I as [I|I]; [discriminate|]). contradiction.
      * destruct (pa_npy a); [|contradiction]. repeat (destruct I as [I|I]; [discriminate|]). contradiction.
    + exists dd. apply in_or_app. left. do 2 right. left. reflexivity.
  - intros Hor. assert (HH : ~ holes (rs_L f) vis).
    { intros (H1 & H2). destruct Hor as [H|H]; [lia|]. rewrite H in Vv. exact (visible_all _ _ _ Vv H2). }
    destruct (D2 HH) as (c & _ & Ec). destruct (M2 HH) as (pM & e & _ & _ & Ee). subst vD eM. split; [|split].
    + intros label I. apply in_app_or in I. destruct I as [I|I].
      * repeat (destruct I as [I|I]; [discriminate|]). contradiction.
      * destruct (pa_npy a); [|contradiction]. repeat (destruct I as [I|I]; [discriminate|]). contradiction.
    + exists e. apply in_or_app. left. do 9 right. left. reflexivity.
    + exists c, dd. split; [apply in_or_app; left; do 2 right; left; reflexivity|]. destruct Hdd as (after & Hdd). unfold plot_map in Hdd.
      destruct (if ma_oversample _ then _ else _) as [g|]; cbn [rbind ma_centre0 ma_mask ma_vmin ma_vmax] in Hdd; [|discriminate].
      destruct (apply_mask g _); cbn [rbind] in Hdd; [|discriminate]. apply Ok_inj in Hdd. injection Hdd as <- _. reflexivity.
  - exists em. apply in_or_app. left. do 10 right. left. reflexivity.
Qed.
Print Assumptions C52_lensing_nan.

(** ** Completion *)
Theorem C52_lensing_completes : forall rf ri S positions gal_b inv fwd truth a f setting, (forall L, positions L = (mw_thetas L, mw_phis L)) ->
  length (cm_buf truth) = (cm_rows truth * cm_cols truth)%nat -> full_shape truth (rs_L f) ->
  (rs_setting f = None -> lensing_plot rf ri S positions gal_b inv fwd truth a f [] = ([], Raise KeyError)) /\
  (rs_setting f = Some setting -> readable setting inv fwd (pa_burn a) f ->
   (forall k, length k = (rs_L f * (2 * rs_L f - 1))%nat -> exists s, shear_of S (rs_L f) k s) ->
   exists outs, lensing_plot rf ri S positions gal_b inv fwd truth a f [] = (outs, Ok tt)).
Proof.
  intros rf ri S positions gal_b inv fwd truth a f setting HP Lt Sh. split.
  { intros Hset. unfold lensing_plot. cbv zeta. rewrite sbind_slift. unfold key_setting. rewrite Hset. reflexivity. }
  intros Hset RD Hsh. destruct (readable_pieces true _ _ _ _ _ RD) as (evo & X & m & wv & rows & Hevo & HX & Lm & HM & Hrows & NE & IX).
  assert (HL : (1 <= rs_L f)%nat) by apply RD.
  unfold lensing_plot. cbv zeta. rewrite sbind_slift. unfold key_setting. rewrite Hset. cbv beta iota.
  set (L := rs_L f) in *. set (npix := (L * (2 * L - 1))%nat) in *. set (t := cm_buf truth) in *.
  rewrite high_max. set (vis := plot_mask positions gal_b (pa_no_mask a) L). set (hvis := plot_mask positions gal_b (pa_no_mask a) (Nat.max L 256)).
  assert (Vv : visible (pa_no_mask a) L gal_b vis) by (apply plot_mask_visible, HP).
  assert (Lv : length vis = npix) by apply Vv.
  assert (Hv : (256 <= L)%nat -> hvis = vis) by (intros B; unfold hvis; rewrite Nat.max_l by exact B; reflexivity).
  change (Plotting.mkMask (Nat.max L 256) (2 * Nat.max L 256 - 1) (map negb hvis)) with (hidden_at L hvis).
  fwd_lift Hevo. rewrite sbind_emit. fwd_lift HX. fwd_lift HM. cbn [fst snd].
  assert (Ltn : length t = npix) by (rewrite Lt; destruct Sh as (S1 & S2); rewrite S1, S2; reflexivity).
  assert (LM : length (real_of m) = npix) by (rewrite real_of_length; exact Lm).
  assert (NP : (1 <= npix)%nat) by (unfold npix; nia).
  assert (PM : forall v x y, exists p, plot_map rf ri (mkCMap L (2 * L - 1) v) (mkArgs x y (Nat.ltb L 256) false (Some (hidden_at L hvis))) = Ok p) by (intros; apply plot_map_masked_exists).
  destruct (PM (real_of m) None None) as (dM & HdM). destruct (plot_map_blanked _ _ _ _ _ _ _ vis _ (eq_trans LM (eq_sym Lv)) Hv HdM) as (EM & _).
  fwd_lift HdM. rewrite sbind_emit. rewrite sbind_slift, map_sub_ok by exact Sh. cbv beta iota. rewrite EM. fold t.
  set (over := Nat.ltb L 256) in *. rewrite blk_sub by congruence. set (diff := map2 (fun x y : C => RtoC (fst x - fst y)) t (real_of m)).
  assert (Ld : length diff = npix) by (unfold diff; rewrite map2_length; congruence).
  assert (ND : diff <> []) by (intros Q; rewrite Q in Ld; cbn in Ld; lia).
  destruct (masked_cbar_exists over diff vis (eq_trans Ld (eq_sym Lv)) ND) as (c & Hc). fwd_lift Hc. rewrite blk_map.
  assert (Lmag : length (map (fun z => RtoC (Cmod z)) diff) = length vis) by (rewrite map_length; congruence).
  match goal with |- context [sbind (draw_nan _ _ ?p _ _ _ _) _ ?o] => destruct (draw_nan_ok rf ri p L (map (fun z => RtoC (Cmod z)) diff) hvis vis c o Lmag Hv) as (dd & _ & Edd) end.
  match goal with |- exists outs, sbind ?d ?k ?o = _ => assert (Q : sbind d k o = k tt (o ++ [OMap (out_path a "diff" "png") (match c with None => true | Some _ => false end) dd])%list)
    by (unfold sbind at 1; replace (d o) with ((o ++ [OMap (out_path a "diff" "png") (match c with None => true | Some _ => false end) dd])%list, @Ok unit tt) by (symmetry; exact Edd); reflexivity); rewrite Q; clear Q; cbv beta end.
  rewrite sbind_emit. fwd_lift Hrows. destruct (C52_complex_range npix rows NE) as (ci & Hci & _). fwd_lift Hci.
  destruct (PM (real_of ci) (Some (RtoC 0)) None) as (dci & Hdci). fwd_lift Hdci. rewrite sbind_emit.
  set (mean := pix_mean npix rows). assert (Lme : length mean = npix) by apply pix_mean_length.
  destruct (PM (real_of mean) None None) as (dme & Hdme). fwd_lift Hdme. rewrite sbind_emit.
  rewrite sbind_slift, map_sub_ok by exact Sh. cbv beta iota. fold t. rewrite real_of_sub. set (dm := map2 (fun x y : C => RtoC (fst x - fst y)) t mean).
  assert (Ldm : length dm = npix) by (unfold dm; rewrite map2_length; congruence).
  assert (NDm : dm <> []) by (intros Q; rewrite Q in Ldm; cbn in Ldm; lia).
  destruct (masked_cbar_exists true dm vis (eq_trans Ldm (eq_sym Lv)) NDm) as (cm & Hcm). rewrite blk_over in Hcm by congruence. fwd_lift Hcm.
  rewrite map_map. change (map (fun x => option_map (fun z => RtoC (Cmod z)) (Some x)) dm) with (map (fun x => Some (RtoC (Cmod x))) dm). rewrite <- (map_map (fun x => RtoC (Cmod x)) Some).
  match goal with |- context [sbind (draw_nan _ _ ?p _ _ _ _) _ ?o] => destruct (draw_nan_plain rf ri p L (map (fun z => RtoC (Cmod z)) dm) hvis cm o) as (ddm & _ & Eddm) end.
  match goal with |- exists outs, sbind ?d ?k ?o = _ => assert (Q : sbind d k o = k tt (o ++ [OMap (out_path a "diffmean" "png") (match cm with None => true | Some _ => false end) ddm])%list)
    by (unfold sbind at 1; replace (d o) with ((o ++ [OMap (out_path a "diffmean" "png") (match cm with None => true | Some _ => false end) ddm])%list, @Ok unit tt) by (symmetry; exact Eddm); reflexivity); rewrite Q; clear Q; cbv beta end.
  rewrite !sbind_emit.
  assert (MM : map_mask L (the_mask L (Some (Measure.mkMask [L; (2 * L - 1)%nat] vis)))) by (split; [reflexivity|exact Lv]).
  destruct (C32_construction L (Some (Measure.mkMask [L; (2 * L - 1)%nat] vis)) None HL MM ltac:(discriminate)) as (w & Hw & _). fwd_lift Hw.
  assert (WF : forall k, length k = npix -> exists y, WL_forward S w k = Ok y /\ length y = length (visible_part vis (repeat (RtoC 0) npix))).
  { intros k Hk. destruct (Hsh k Hk) as (s & Hs). exists (visible_part vis s). split; [exact (C52_lensing_shear _ _ _ _ _ _ _ _ Vv HL Hw Hs)|].
    rewrite <- !visible_part_select by (rewrite ?repeat_length; first [congruence|destruct Hs as (_ & Hs & _); fold npix in Hs; congruence]).
    rewrite !select_length; [reflexivity|rewrite repeat_length; exact Lv|destruct Hs as (_ & Hs & _); fold npix in Hs; congruence]. }
  destruct (WF t Ltn) as (obs & Hobs & Lo). fwd_lift Hobs.
  assert (R2 : forall label mm v o, length v = npix -> (no_nan mm = None \/ no_nan mm = Some v) -> exists o', r2e_line S label w obs mm o = (o', Ok tt)).
  { intros label mm v o Hl Hn. unfold r2e_line. destruct Hn as [-> | ->]; [eexists; reflexivity|]. destruct (WF v Hl) as (y & Hy & Ly). fwd_lift Hy.
    unfold rel_squared_error. rewrite np_sub_same by congruence. cbn [rbind]. rewrite sbind_slift. eexists. reflexivity. }
  destruct (no_nan_blk over (real_of m) vis (eq_trans LM (eq_sym Lv))) as (NB1 & NB2).
  assert (Q : no_nan (blk over (real_of m) vis) = None \/ no_nan (blk over (real_of m) vis) = Some (real_of m)).
  { destruct (Bool.bool_dec over false) as [B|B]; [|right; apply NB2; intros (B' & _); exact (B B')]. destruct (in_dec Bool.bool_dec false vis) as [I|I]; [left; apply NB1; auto|].
    right. apply NB2. intros (_ & I'). exact (I I'). }
  match goal with |- exists outs, sbind (r2e_line _ ?l _ _ _) ?k ?o = _ => destruct (R2 l _ _ o LM Q) as (o1 & Eo1); unfold sbind at 1; rewrite Eo1; cbv beta iota end.
  match goal with |- exists outs, sbind (r2e_line _ ?l _ _ _) ?k ?o = _ => destruct (R2 l _ _ o Lme (or_intror (no_nan_some mean))) as (o2 & Eo2); unfold sbind at 1; rewrite Eo2; cbv beta iota end.
  apply save_arrays_exists.
Qed.
Print Assumptions C52_lensing_completes.

(** such runs exist *)
Definition flat_ssht : ssht := mkSsht (fun L _ _ => Ok (vzero (L * L))) (fun L _ _ => Ok (vzero (L * (2 * L - 1)))) (fun L _ _ => Ok (vzero (L * L))) (fun L _ _ => Ok (vzero (L * (2 * L - 1)))).
Lemma flat_shear : forall L k, (1 <= L)%nat -> length k = (L * (2 * L - 1))%nat -> shear_of flat_ssht L k (vzero (L * (2 * L - 1))).
Proof.
  intros L k HL Hk. split; [exact Hk|]. split; [apply repeat_length|]. destruct (C31_construction (Z.of_nat L)) as (_ & C). destruct (C ltac:(lia)) as (h & Eh & _).
  destruct (C31_forward _ h (vzero (L * L)) Eh) as (glm & Eg & _); [unfold vzero; rewrite repeat_length; nia|].
  exists h, (vzero (L * L)), glm. split; [exact Eh|]. split; [reflexivity|]. split; [exact Eg|reflexivity].
Qed.
Lemma nan_run : forall L0, (256 <= L0)%nat -> exists S positions gal_b inv fwd truth a f outs, (forall L, positions L = (mw_thetas L, mw_phis L)) /\
  full_shape truth (rs_L f) /\ length (cm_buf truth) = (cm_rows truth * cm_cols truth)%nat /\ readable "analysis" inv fwd (pa_burn a) f /\
  lensing_plot (fun _ v => v) (fun _ v => v) S positions gal_b inv fwd truth a f [] = (outs, Ok tt) /\ In (OPrint "MAP R2E" None) outs.
Proof.
  intros L0 HL0. set (n := (L0 * (2 * L0 - 1))%nat). set (a := mkPlotArgs "figs" "" 0 false false). set (f := mkResults L0 (Some "analysis"%string) 1 [0] [vzero n]).
  set (truth := mkCMap L0 (2 * L0 - 1) (vzero n)). set (pos := fun L => (mw_thetas L, mw_phis L)). set (gb := fun _ _ : R => 90).
  assert (HP : forall L, pos L = (mw_thetas L, mw_phis L)) by reflexivity.
  assert (Sh : full_shape truth (rs_L f)) by (split; reflexivity). assert (Lt : length (cm_buf truth) = (cm_rows truth * cm_cols truth)%nat) by apply repeat_length.
  assert (RD : readable "analysis" Ok Ok (pa_burn a) f).
  { unfold readable. cbn [rs_L rs_logpi rs_chain rs_nsamples f pa_burn a]. split; [lia|]. split; [discriminate|]. split; [apply le_n|]. split; [reflexivity|]. split; [lia|].
    intros s [<-|[]]. split; [|intros _; eexists; reflexivity]. exists (vzero n). split; [right; split; [discriminate|reflexivity]|apply repeat_length]. }
  destruct (C52_lensing_completes (fun _ v => v) (fun _ v => v) flat_ssht pos gb Ok Ok truth a f "analysis" HP Lt Sh) as (_ & Q).
  destruct (Q eq_refl RD) as (outs & E); [intros k Hk; eexists; apply flat_shear; [cbn [rs_L f]; lia|exact Hk]|].
  exists flat_ssht, pos, gb, Ok, Ok, truth, a, f, outs. split; [exact HP|]. split; [exact Sh|]. split; [exact Lt|]. split; [exact RD|]. split; [exact E|].
  apply C52_lensing_nan in E; [|exact HP|exact Lt]. destruct E as (E & _). apply E. split; [cbn [rs_L f]; lia|reflexivity].
Qed.
Theorem C52_lensing_nan_refuted : exists S positions gal_b inv fwd truth a f outs, (forall L, positions L = (mw_thetas L, mw_phis L)) /\
  full_shape truth (rs_L f) /\ length (cm_buf truth) = (cm_rows truth * cm_cols truth)%nat /\ readable "analysis" inv fwd (pa_burn a) f /\
  lensing_plot (fun _ v => v) (fun _ v => v) S positions gal_b inv fwd truth a f [] = (outs, Ok tt) /\ In (OPrint "MAP R2E" None) outs.
Proof. exact (nan_run 256 (le_n 256)). Qed.
Print Assumptions C52_lensing_nan_refuted.

(** at L = 1 the only pixel is the south pole: truth 3, samples 5 and 7 *)
Example C52_case_lensing : let a := mkPlotArgs "figs" "" 0 true false in
  let f := mkResults 1 (Some "analysis"%string) 2 [-1; -2] [[RtoC 5]; [RtoC 7]] in
  exists outs, lensing_plot (fun _ v => v) (fun _ v => v) flat_ssht (fun L => (mw_thetas L, mw_phis L)) (fun _ _ => 90) Ok Ok (mkCMap 1 1 [RtoC 3]) a f [] = (outs, Ok tt) /\
    In (ONpy "figs/diff.npy" [Some (RtoC (-2))]) outs /\ In (ONpy "figs/diff_mean.npy" [Some (RtoC (-3))]) outs /\
    In (OPrint "MAP SNR" (Some (snr [RtoC 3] [RtoC (-2)]))) outs.
Proof.
  intros a f. set (pos := fun L => (mw_thetas L, mw_phis L)). set (truth := mkCMap 1 1 [RtoC 3]).
  assert (HP : forall L, pos L = (mw_thetas L, mw_phis L)) by reflexivity.
  assert (RD : readable "analysis" Ok Ok (pa_burn a) f).
  { unfold readable. cbn [rs_L rs_logpi rs_chain rs_nsamples f pa_burn a length]. split; [lia|]. split; [discriminate|]. split; [lia|]. split; [reflexivity|]. split; [lia|].
    intros s Is. split; [|intros _; eexists; reflexivity]. exists s. split; [right; split; [discriminate|reflexivity]|destruct Is as [<-|[<-|[]]]; reflexivity]. }
  destruct (C52_lensing_completes (fun _ v => v) (fun _ v => v) flat_ssht pos (fun _ _ => 90) Ok Ok truth a f "analysis" HP eq_refl (conj eq_refl eq_refl)) as (_ & Q).
  destruct (Q eq_refl RD) as (outs & E); [intros k Hk; eexists; apply flat_shear; [cbn [rs_L f]; lia|exact Hk]|].
  exists outs. split; [exact E|]. apply C52_lensing in E; [|exact HP|reflexivity].
  destruct E as (setting & evo & MAP & wv & rows & ci & mean & vis & hvis & MAPn & diff & diffn & dm & vD & cm & dM & dd & dci & dmean & ddm & w & obs & eM & pm & em & E).
  cbv zeta in E. destruct E as (Hs & _ & Es & _ & _ & Vv & _ & _ & Av & Rd & Rdm & _ & (Ln & Bn) & _ & _ & _ & _ & _ & _ & _ & _ & _ & _ & _ & _ & _ & _ & ->).
  injection Hs as <-. destruct Es as ((k0 & X0 & m & Fk & Ek & Im & Lm & EM & _) & _ & Lr & Rows). specialize (Rows ltac:(cbn; lia) eq_refl).
  assert (Ek1 : k0 = 0%nat).
  { apply (first_largest_unique [-1; -2]); [exact Fk|]. split; [cbn; lia|]. split; [|lia]. intros [|[|i]] Hi; clear - Hi; cbn in *; lra || lia. }
  subst k0. cbn in Ek. injection Ek as <-. destruct Im as [(N & _)|(_ & ->)]; [discriminate|]. cbn in EM. subst MAP.
  destruct Rd as (Ld & Rd). cbn [truth cm_buf length] in Ld. destruct diff as [|d [|? ?]]; try discriminate. specialize (Rd 0%nat ltac:(cbn; lia)). cbn [nth truth cm_buf] in Rd.
  assert (Ed : d = RtoC (-2)) by (rewrite Rd; f_equal; cbn; lra). clear Rd. subst d.
  cbn [length] in Ln. destruct diffn as [|dn [|? ?]]; try discriminate. specialize (Bn 0%nat ltac:(cbn; lia)). cbn [nth rs_L f] in Bn. change (Nat.ltb 1 256) with true in Bn. cbv iota in Bn. subst dn.
  assert (Er : rows = [[RtoC 5]; [RtoC 7]]).
  { change (skipn (Z.to_nat (pa_burn a)) (rs_chain f)) with [[RtoC 5]; [RtoC 7]] in Rows. unfold images_of in Rows.
    inversion Rows as [|s1 r1 l1 l2 (v1 & I1 & A1) Rows']; subst. inversion Rows' as [|s2 r2 l3 l4 (v2 & I2 & A2) Rows'']; subst. inversion Rows''; subst.
    destruct I1 as [(N & _)|(_ & ->)]; [discriminate|]. destruct I2 as [(N & _)|(_ & ->)]; [discriminate|].
    assert (One : forall z r, assigned (1 * (2 * 1 - 1)) (fun z => z) [z] r -> r = [z]).
    { intros z r [((_ & H) & Lr0)|(z' & Q1 & ->)]; [|injection Q1 as <-; reflexivity]. destruct r as [|x [|? ?]]; try discriminate. f_equal. exact (H 0%nat ltac:(cbn; lia)). }
    apply One in A1, A2. subst. reflexivity. }
  subst rows. destruct Av as (La & Av). cbn [rs_L f] in La, Av. destruct mean as [|mm [|? ?]]; try discriminate. specialize (Av 0%nat ltac:(cbn; lia)). cbn [nth map length] in Av.
  destruct Av as (Av & _). destruct Rdm as (Ldm & Rdm). cbn [truth cm_buf length] in Ldm. destruct dm as [|d [|? ?]]; try discriminate. specialize (Rdm 0%nat ltac:(cbn; lia)). cbn [nth truth cm_buf] in Rdm.
  assert (Ed3 : d = RtoC (-3)) by (rewrite Rdm; f_equal; unfold Re at 2; rewrite Av; cbn; lra). clear Rdm. subst d.
  destruct Vv as (Lv & Vv). cbn [rs_L f] in Lv, Vv. destruct vis as [|b [|? ?]]; try discriminate. specialize (Vv 0%nat ltac:(cbn; lia)). cbn [nth] in Vv.
  assert (b = true).
  { apply Vv. right. unfold shown_pixel. change (0 / (2 * 1 - 1))%nat with 0%nat. rewrite (Rabs_right 90) by lra. split; [|lra]. unfold mw_thetas, degrees. cbn [seq map nth].
    assert (PP := PI_RGT_0). match goal with |- 20 <= Rabs (90 - ?u) => replace u with 180; [rewrite Rabs_left; lra|] end. simpl. field. lra. }
  subst b. cbn [pa_npy a]. split; [apply in_or_app; right; do 3 right; left; reflexivity|]. split; [apply in_or_app; right; do 4 right; left; reflexivity|].
  apply in_or_app. left. do 7 right. left. reflexivity.
Qed.
