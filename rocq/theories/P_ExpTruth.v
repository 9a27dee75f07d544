(** C72: what the plotting scripts compare the results with. *)
From Coq Require Import List ZArith Lia Bool Reals Lra Psatz String.
From Coquelicot Require Import Coquelicot.
From Verif Require Import PyBase PyBaseFacts CVec RSort Utils UtilsSpec UtilsProof P_Utils Prior Measure MeasSpec MeasProof P_Meas Forward FwdProof P_Forward
  TransSpec Transforms P_Trans Mcmc McmcSpec Uncertainty UncProof P_Unc P_Mcmc Plotting P_Plot Download
  ExpData ExpSpec ExpProof P_ExpLens P_ExpPaths P_ExpTopo P_ExpTopoB ExpPlot ExpPlotSpec P_ExpPlot P_ExpPlotB P_ExpPlotC ExpTruth.
Import ListNotations.
Open Scope R_scope.
Notation length := List.length.

(** ** Images of different sizes *)

Lemma flat_rows : forall (g : nat -> nat -> C) c r i j, (i < r)%nat -> (j < c)%nat ->
  nth (i * c + j) (flat_map (fun i => map (g i) (seq 0 c)) (seq 0 r)) (RtoC 0) = g i j.
Proof.
  intros g c r. assert (G : forall a i j, (i < r)%nat -> (j < c)%nat ->
    nth (i * c + j) (flat_map (fun i => map (g i) (seq 0 c)) (seq a r)) (RtoC 0) = g (a + i)%nat j).
  { induction r as [|r IH]; intros a i j Hi Hj; [lia|]. cbn [seq flat_map].
    destruct i as [|i].
    - rewrite app_nth1 by (rewrite map_length, seq_length; lia). cbn [Nat.mul Nat.add]. rewrite (nth_map_in _ _ _ _ 0%nat) by (rewrite seq_length; lia).
      rewrite seq_nth by lia. rewrite Nat.add_0_r. reflexivity.
    - rewrite app_nth2 by (rewrite map_length, seq_length; lia). rewrite map_length, seq_length.
      replace (S i * c + j - c)%nat with (i * c + j)%nat by lia. rewrite IH by lia. f_equal. lia. }
  intros i j Hi Hj. apply (G 0%nat i j Hi Hj).
Qed.
Lemma flat_rows_length : forall (g : nat -> nat -> C) c r, length (flat_map (fun i => map (g i) (seq 0 c)) (seq 0 r)) = (r * c)%nat.
Proof.
  intros g c r. assert (G : forall a, length (flat_map (fun i => map (g i) (seq 0 c)) (seq a r)) = (r * c)%nat); [|apply G].
  induction r as [|r IH]; intros a; [reflexivity|]. cbn [seq flat_map]. rewrite app_length, map_length, seq_length, IH. lia.
Qed.

(** Subtracting two maps in MW sampling: of the same band limit, pixel by pixel;
    of different band limits, a ValueError unless one of them is a single pixel.
    So [map_sub], with which C52 and C53 are stated, is numpy's subtraction except
    for single pixels. *)
Theorem C72_subtraction : forall K L t v, (1 <= K)%nat -> (1 <= L)%nat ->
  length t = (K * (2 * K - 1))%nat -> length v = (L * (2 * L - 1))%nat ->
  let truth := mkCMap K (2 * K - 1) t in let m := mkCMap L (2 * L - 1) v in
  (K = L -> exists d, np_sub2 truth m = Ok (mkCMap L (2 * L - 1) d) /\ map_sub truth L v = Ok d /\
     length d = length v /\ forall p, (p < length v)%nat -> nth p d (RtoC 0) = (nth p t (RtoC 0) - nth p v (RtoC 0))%C) /\
  (K <> L -> K <> 1%nat -> L <> 1%nat -> np_sub2 truth m = Raise ValueError /\ map_sub truth L v = Raise ValueError) /\
  (K <> L -> K = 1%nat \/ L = 1%nat -> let M := Nat.max K L in
     exists d, np_sub2 truth m = Ok (mkCMap M (2 * M - 1) d) /\ length d = (M * (2 * M - 1))%nat /\
       forall p, (p < length d)%nat -> nth p d (RtoC 0) =
         (nth (if Nat.eqb K 1 then 0 else p)%nat t (RtoC 0) - nth (if Nat.eqb L 1 then 0 else p)%nat v (RtoC 0))%C).
Proof.
  intros K L t v HK HL Lt Lv truth m. split; [|split].
  - intros E. subst K. unfold np_sub2, truth, m. cbn [cm_rows cm_cols]. unfold bcast_dim. rewrite !Nat.eqb_refl.
    eexists. split; [reflexivity|]. unfold map_sub. cbn [cm_rows cm_cols cm_buf]. rewrite !Nat.eqb_refl. cbn [andb].
    set (c := (2 * L - 1)%nat) in *.
    set (g := fun i j => (bcast_get (mkCMap L c t) i j - bcast_get (mkCMap L c v) i j)%C).
    change (flat_map _ (seq 0 L)) with (flat_map (fun i => map (g i) (seq 0 c)) (seq 0 L)).
    assert (V : forall p, (p < length v)%nat -> nth p (flat_map (fun i => map (g i) (seq 0 c)) (seq 0 L)) (RtoC 0) = (nth p t (RtoC 0) - nth p v (RtoC 0))%C).
    { intros p Hp. assert (Hc : (c <> 0)%nat) by (unfold c; lia).
      assert (Ep := Nat.div_mod p c Hc). assert (Hj := Nat.mod_upper_bound p c Hc).
      assert (Hi : (p / c < L)%nat) by (apply Nat.div_lt_upper_bound; lia).
      rewrite Ep at 1. rewrite (Nat.mul_comm c), flat_rows by auto. unfold g, bcast_get. cbn [cm_rows cm_cols cm_buf].
      assert (Q1 : (if Nat.eqb L 1 then 0 else p / c)%nat = (p / c)%nat) by (destruct (Nat.eqb_spec L 1); lia).
      assert (Q2 : (if Nat.eqb c 1 then 0 else p mod c)%nat = (p mod c)%nat) by (destruct (Nat.eqb_spec c 1); lia).
      rewrite Q1, Q2. rewrite Nat.mul_comm, <- Ep. reflexivity. }
    split.
    + f_equal. apply (nth_ext _ _ (RtoC 0) (RtoC 0)).
      * rewrite map2_length by congruence. rewrite flat_rows_length. exact Lt.
      * intros p Hp. rewrite map2_length in Hp by congruence. rewrite (CVec.nth_map2 _ _ _ _ (RtoC 0) (RtoC 0)) by congruence. rewrite V by congruence. reflexivity.
    + split; [rewrite flat_rows_length; congruence|exact V].
  - intros NE N1 N2. unfold np_sub2, map_sub, truth, m. cbn [cm_rows cm_cols]. unfold bcast_dim.
    rewrite (proj2 (Nat.eqb_neq K L) NE), (proj2 (Nat.eqb_neq K 1) N1), (proj2 (Nat.eqb_neq L 1) N2). auto.
  - intros NE OR M. unfold np_sub2, truth, m. cbn [cm_rows cm_cols]. unfold bcast_dim.
    rewrite (proj2 (Nat.eqb_neq K L) NE). assert (NC : Nat.eqb (2 * K - 1) (2 * L - 1) = false) by (apply Nat.eqb_neq; lia). rewrite NC.
    set (g := fun i j => (bcast_get (mkCMap K (2 * K - 1) t) i j - bcast_get (mkCMap L (2 * L - 1) v) i j)%C).
    assert (SH : exists r c, (if Nat.eqb K 1 then Some L else if Nat.eqb L 1 then Some K else None) = Some r /\
      (if Nat.eqb (2 * K - 1) 1 then Some (2 * L - 1) else if Nat.eqb (2 * L - 1) 1 then Some (2 * K - 1) else None)%nat = Some c /\ r = M /\ c = (2 * M - 1)%nat).
    { unfold M. destruct (Nat.eqb_spec K 1) as [->|A].
      - exists L, (2 * L - 1)%nat. rewrite Nat.max_r by lia. auto.
      - assert (L = 1%nat) by lia. subst L. assert (Q : Nat.eqb (2 * K - 1) 1 = false) by (apply Nat.eqb_neq; lia). rewrite Q.
        exists K, (2 * K - 1)%nat. rewrite Nat.max_l by lia. auto. }
    destruct SH as (r & c & -> & -> & -> & ->). eexists. split; [reflexivity|].
    change (flat_map _ (seq 0 M)) with (flat_map (fun i => map (g i) (seq 0 (2 * M - 1))) (seq 0 M)).
    split; [apply flat_rows_length|]. rewrite flat_rows_length. intros p Hp.
    assert (HM : (1 <= M)%nat) by (unfold M; lia). assert (Hc : (2 * M - 1 <> 0)%nat) by lia.
    assert (Ep := Nat.div_mod p _ Hc). assert (Hj := Nat.mod_upper_bound p _ Hc).
    assert (Hi : (p / (2 * M - 1) < M)%nat) by (apply Nat.div_lt_upper_bound; lia).
    rewrite Ep at 1. rewrite (Nat.mul_comm (2 * M - 1)), flat_rows by auto. unfold g, bcast_get. cbn [cm_rows cm_cols cm_buf].
    assert (G : forall N, (1 <= N)%nat -> N = 1%nat \/ N = M ->
      ((if Nat.eqb N 1 then 0 else p / (2 * M - 1)) * (2 * N - 1) + (if Nat.eqb (2 * N - 1) 1 then 0 else p mod (2 * M - 1)) =
       (if Nat.eqb N 1 then 0 else p))%nat).
    { intros N HN [-> | ->]; [reflexivity|]. destruct (Nat.eqb_spec M 1) as [Q|Q].
      - rewrite Q. reflexivity.
      - assert (Q2 : Nat.eqb (2 * M - 1) 1 = false) by (apply Nat.eqb_neq; lia). rewrite Q2. lia. }
    rewrite (G K HK), (G L HL); [reflexivity| |]; unfold M; lia.
Qed.
Print Assumptions C72_subtraction.

(** ** Topography *)

(** The image called truth is the data of a run on the same map without noise, in
    the same units (kilometres).  pys2let and pyssht have to agree on the map
    with the coefficients lm. *)
Theorem C72_topo_truth : forall G (rnd : npr G) lib real_inverse L thetas phis infile sigma scale (g g' : G) ts v,
  str_contains "_hpx_" infile = true -> tl_read_map lib infile = tl_read_map lib "ETOPO1_Ice_hpx_256.fits" ->
  (forall k a lm, tl_read_map lib infile = Ok k -> tl_map2alm lib k (Z.of_nat L - 1) = Ok a -> tl_hp2lm lib a L = Ok lm ->
     real_inverse lm L = tl_alm2map lib lm L 0) ->
  prepare_topo lib rnd L thetas phis infile false sigma scale g = Ok (ts, g') -> ts_data ts = Arr1 v ->
  topo_truth lib real_inverse L = Ok (mkCMap L (2 * L - 1) v) /\ ts_complex ts = true /\ ts_sig ts = SPy (RtoC sigma) false.
Proof.
  intros G rnd lib ri L thetas phis infile sigma scale g g' ts v HI HF HR E ED. unfold prepare_topo, read_topo in E. rewrite HI in E.
  unfold topo_truth. rewrite <- HF. destruct (tl_read_map lib infile) as [k|] eqn:E1; cbn [rbind] in E |- *; [|discriminate].
  destruct (tl_map2alm lib k (Z.of_nat L - 1)) as [a|] eqn:E2; cbn [rbind] in E |- *; [|discriminate].
  destruct (tl_hp2lm lib a L) as [lm|] eqn:E3; cbn [rbind] in E |- *; [|discriminate].
  rewrite (HR k a lm eq_refl E2 E3). destruct (tl_alm2map lib lm L 0) as [d|] eqn:E4; cbn [rbind] in E |- *; [|discriminate].
  injection E as <- _. cbn [ts_data per_thousand] in ED. injection ED as <-. cbn [ts_complex ts_sig]. auto.
Qed.
Print Assumptions C72_topo_truth.

Lemma snr_squares : forall s d, 0 < nrm2 s -> 0 < nrm2 d -> snr s d = 10 * (ln (nrm2 s / nrm2 d) / ln 10).
Proof.
  intros s d Hs Hd. unfold snr, log10, norm. assert (Q : ln (nrm2 s / nrm2 d) = 2 * ln (sqrt (nrm2 s) / sqrt (nrm2 d))).
  { rewrite <- (sqrt_sqrt (nrm2 s / nrm2 d)) at 1 by (left; apply Rdiv_lt_0_compat; auto).
    rewrite sqrt_div by lra. assert (P : 0 < sqrt (nrm2 s) / sqrt (nrm2 d)) by (apply Rdiv_lt_0_compat; apply sqrt_lt_R0; auto).
    rewrite ln_mult by auto. ring. }
  rewrite Q. assert (ln 10 <> 0) by (apply Rgt_not_eq; rewrite <- ln_1; apply ln_increasing; lra). field. auto.
Qed.
Lemma difference_map2 : forall t v d, length t = length v -> difference t v d -> d = map2 Cminus t v.
Proof.
  intros t v d LL (Ld & H). rewrite LL, Nat.min_id in Ld. apply (nth_ext _ _ (RtoC 0) (RtoC 0)); [rewrite map2_length; congruence|].
  intros p Hp. rewrite (CVec.nth_map2 _ _ _ _ (RtoC 0) (RtoC 0)) by congruence. apply H. exact Hp.
Qed.

(** The SNR printed for a sample is its recorded-type misfit in decibels: with
    l2 the L2 that logpi gives for the sample, |truth|^2 / (sqrt 2 sigma^2 l2).
    The factor sqrt 2 comes from the weights of complex data (C48_operator). *)
Theorem C72_topo_snr : forall sl junk inv L v sigma t f pr q X m d lp l2 p diff,
  let npix := (L * (2 * L - 1))%nat in
  length v = npix -> sigma <> 0 -> SWT_init sl junk L (3 / 2) 2 1 0 false = Ok t ->
  topo_operator sl junk inv L "synthesis" v true (SPy (RtoC sigma) false) = Ok f ->
  SWT_inverse t X = Ok m -> length m = npix -> (forall z, In z m -> Im z = 0) ->
  fo_forward f X = Ok d -> logpi f pr q X d = Ok (lp, l2, p) ->
  difference v (map (fun z => RtoC (Re z)) m) diff ->
  Re l2 = sum_squares diff / (sqrt 2 * sigma ^ 2) /\ Im l2 = - Re l2 /\
  (0 < sum_squares v -> Re l2 <> 0 -> snr v diff = 10 * (ln (sum_squares v / (sqrt 2 * sigma ^ 2 * Re l2)) / ln 10)).
Proof.
  intros sl junk inv L v sigma t f pr q X m d lp l2 p diff npix Lv Hs ET EF EI Lm Rm ED EL HD.
  destruct (C48_operator sl junk inv L "synthesis" v true (inl sigma) t npix) as (f' & EF' & FD & FR & FC & FE & FS & FT & FN & ms & FM & HM & _);
    [exact Lv|discriminate|intros s Q; injection Q as <-; exact Hs|exact ET|auto|]. cbv iota in EF', FE. rewrite EF in EF'. apply Ok_inj in EF'. subst f'.
  assert (DM : d = m).
  { unfold fo_forward in ED. rewrite FS, FM, FT in ED. cbn [attr rbind] in ED. change (String.eqb "synthesis" "analysis") with false in ED. cbv iota in ED.
    unfold swt_transform in ED. cbn [t_inverse] in ED. rewrite EI in ED. cbn [rbind] in ED.
    destruct (HM m Lm) as (Y & EY & LY & HY). rewrite EY in ED. apply Ok_inj in ED. subst d.
    apply (nth_ext _ _ (RtoC 0) (RtoC 0)); [congruence|]. intros i Hi. apply HY. congruence. }
  subst d. assert (RM : map (fun z => RtoC (Re z)) m = m).
  { clear - Rm. induction m as [|z m IH]; [reflexivity|]. cbn [map]. rewrite IH by (intros; apply Rm; right; auto). f_equal.
    assert (Q := Rm z (or_introl eq_refl)). destruct z as [x y]. unfold Re, Im in *. cbn in *. subst y. reflexivity. }
  rewrite RM in HD. apply difference_map2 in HD; [|congruence].
  rewrite (logpi_value f pr q X m npix) in EL by (rewrite ?FD; cbn [d_val]; auto). destruct (pr_prior pr X); cbn [rbind] in EL; [|discriminate].
  cbv zeta in EL. injection EL as _ <- _. rewrite FD. cbn [d_val].
  replace (vsub v m) with diff by (rewrite HD; reflexivity). assert (Ld : length diff = npix) by (rewrite HD, map2_length; congruence).
  assert (S2 : 0 < sqrt 2) by (apply sqrt_lt_R0; lra). assert (Ps : 0 < sigma ^ 2) by (rewrite <- Rsqr_pow2; apply Rlt_0_sqr; exact Hs).
  assert (QF : quadform (fo_invcov f) diff = (RtoC (sum_squares diff / (sqrt 2 * sigma ^ 2)) * (RtoC 1 - Ci))%C).
  { assert (DG : is_diagonal (fo_invcov f) (repeat (topo_weight true sigma) npix)).
    { split; [rewrite repeat_length; exact FR|]. split; [rewrite repeat_length; exact FC|]. rewrite repeat_length. intros i j Hi Hj.
      rewrite FE by auto. rewrite nth_repeat_in by exact Hi. reflexivity. }
    rewrite (quadform_diagonal _ _ _ DG) by (rewrite repeat_length; congruence). rewrite <- Ld. unfold sum_squares. clear - S2 Ps.
    induction diff as [|z l IH].
    { cbn [length repeat map2 csum fold_right map rsum]. unfold Rdiv. rewrite Rmult_0_l. ring. }
    cbn [length repeat map2 csum fold_right map rsum]. unfold csum, rsum in IH. rewrite IH. unfold topo_weight.
    set (x := fold_right Rplus 0 _). replace ((Cmod z ^ 2 + x) / (sqrt 2 * sigma ^ 2)) with (1 / (sqrt 2 * sigma ^ 2) * Cmod z ^ 2 + x / (sqrt 2 * sigma ^ 2)) by (unfold Rdiv; ring).
    rewrite RtoC_plus, (RtoC_mult (1 / _)). ring. }
  rewrite QF. set (x := sum_squares diff / (sqrt 2 * sigma ^ 2)).
  assert (RE : Re (RtoC x * (RtoC 1 - Ci))%C = x) by (unfold Re, Cmult, Cminus, Ci, RtoC; cbn; ring).
  assert (IM : Im (RtoC x * (RtoC 1 - Ci))%C = - x) by (unfold Im, Cmult, Cminus, Ci, RtoC; cbn; ring).
  rewrite RE, IM. split; [reflexivity|]. split; [reflexivity|]. intros Pv Nx.
  assert (Pd : 0 < sum_squares diff).
  { assert (N0 : 0 <= sum_squares diff) by apply nrm2_nonneg. destruct N0 as [N0|N0]; [exact N0|]. exfalso. apply Nx. unfold x. rewrite <- N0. unfold Rdiv. ring. }
  rewrite snr_squares by assumption. unfold x. replace (sqrt 2 * sigma ^ 2 * (sum_squares diff / (sqrt 2 * sigma ^ 2))) with (sum_squares diff) by (field; split; [exact Hs|lra]).
  reflexivity.
Qed.
Print Assumptions C72_topo_snr.

(** What is printed for a whole results file: the last line is the misfit of the
    sample with the largest recorded log posterior. *)
Theorem C72_topo_reported : forall rf ri typed sl junk inv fwd L v sigma t f pr q noise a file outs k X m d lp l2 p,
  let npix := (L * (2 * L - 1))%nat in
  length v = npix -> sigma <> 0 -> (forall z, In z v -> snd z = 0) -> 0 < sum_squares v ->
  SWT_init sl junk L (3 / 2) 2 1 0 false = Ok t ->
  topo_operator sl junk inv L "synthesis" v true (SPy (RtoC sigma) false) = Ok f ->
  rs_L file = L -> rs_setting file = Some "synthesis"%string ->
  topo_plot rf ri typed (SWT_inverse t) fwd (mkCMap L (2 * L - 1) v) noise a file [] = (outs, Ok tt) ->
  first_largest (rs_logpi file) k -> nth_error (rs_chain file) k = Some X ->
  SWT_inverse t X = Ok m -> (forall z, In z m -> Im z = 0) ->
  fo_forward f X = Ok d -> logpi f pr q X d = Ok (lp, l2, p) -> Re l2 <> 0 ->
  exists before, outs = before ++ [prints "MAP SNR" (10 * (ln (sum_squares v / (sqrt 2 * sigma ^ 2 * Re l2)) / ln 10))].
Proof.
  intros rf ri typed sl junk inv fwd L v sigma t f pr q noise a file outs k X m d lp l2 p npix Lv Hs Rv Pv ET EF EL Est E Fk Ek EI Rm ED Elp Nl.
  apply C52_topo in E; [|exact Rv]. destruct E as (_ & E). unfold topo_report in E. cbv zeta in E. rewrite Est, EL in E.
  destruct E as (evo & MAP & wv & rows & ci & mean & diff & dm & c & cm & dt & dM & dd & dci & dmean & ddm & extra & _ & Es & _ & _ & _ & _ & Hd & _ & _ & _ & _ & _ & _ & _ & _ & _ & _ & _ & ->).
  destruct Es as ((k0 & X0 & m0 & Fk0 & Ek0 & Im0 & Lm0 & EM & _) & _). rewrite (first_largest_unique _ _ _ Fk0 Fk), Ek in Ek0. injection Ek0 as <-.
  destruct Im0 as [(_ & Im0)|(N & _)]; [|congruence]. rewrite EI in Im0. apply Ok_inj in Im0. subst m0. rewrite EL in Lm0.
  cbn [cm_buf] in *. rewrite EM in Hd.
  destruct (C72_topo_snr sl junk inv L v sigma t f pr q X m d lp l2 p diff Lv Hs ET EF EI Lm0 Rm ED Elp) as (_ & _ & HS); [exact Hd|].
  rewrite (HS Pv Nl). eexists (_ ++ extra ++ [_]). rewrite <- app_assoc. f_equal. rewrite <- app_assoc. reflexivity.
Qed.
Print Assumptions C72_topo_reported.

(** The name of the map is fixed: for a run on another map (--infile) the truth
    drawn is not the one inverted. *)
Theorem C72_topo_other_map_refuted : exists lib (rnd : npr unit) real_inverse infile ts v w,
  str_contains "_hpx_" infile = true /\ (forall lm, real_inverse lm 1%nat = tl_alm2map lib lm 1 0) /\
  prepare_topo lib rnd 1 (mw_thetas 1) (mw_phis 1) infile false 1 1 tt = Ok (ts, tt) /\ ts_data ts = Arr1 v /\
  topo_truth lib real_inverse 1 = Ok (mkCMap 1 1 w) /\ w <> v.
Proof.
  set (lib := mkTopoLib (fun s => if String.eqb s "mars_hpx_64.fits" then Ok [RtoC 1000] else Ok [RtoC 0]) (fun m _ => Ok m) (fun m _ => Ok m) (fun m _ _ => Ok m)
    (fun _ => Raise ValueError) (fun _ _ => Ok 0%Z) (fun _ _ => Ok 0%Z)).
  eexists lib, (mkNpr unit (fun _ g => g) (fun l g => (l, g))), (fun m _ => Ok m), "mars_hpx_64.fits"%string, _, [(RtoC 1000 / RtoC 1000)%C], [(RtoC 0 / RtoC 1000)%C].
  split; [reflexivity|]. split; [reflexivity|]. split; [reflexivity|]. split; [reflexivity|]. split; [reflexivity|].
  intros Q. injection Q as Q. unfold Cdiv, Cmult, Cinv, RtoC in Q. cbn in Q. lra.
Qed.
Print Assumptions C72_topo_other_map_refuted.

(** ** Lensing *)

(** the truth is the convergence map whose shear are the data of a run on the
    downloaded file (C50) *)
Theorem C72_lens_truth : forall hp S L x, lens_truth hp S L = Ok x <->
  exists kappa, x = mkCMap L (2 * L - 1) kappa /\ truth_map hp S "takahasi_4096_000_zs16_kappa.fits" L kappa.
Proof.
  intros hp S L x. unfold lens_truth, truth_map. cbv zeta.
  assert (D : deg2rad (50 / 60) = 5 / 6 * PI / 180) by (unfold deg2rad; field).
  assert (N : (3 * (Z.of_nat L - 1) - 1 = 3 * Z.of_nat L - 4)%Z) by lia. rewrite D, N. split.
  - intros E. destruct (hp_read_map hp _) as [k|] eqn:E1; cbn [rbind] in E; [|discriminate].
    destruct (hp_map2alm hp k _) as [al|] eqn:E2; cbn [rbind] in E; [|discriminate].
    destruct (hp_alm2map hp al _) as [k2|] eqn:E3; cbn [rbind] in E; [|discriminate].
    destruct (hp_smoothing hp k2 _) as [k3|] eqn:E4; cbn [rbind] in E; [|discriminate].
    destruct (hp_map2alm hp k3 _) as [a2|] eqn:E5; cbn [rbind] in E; [|discriminate].
    destruct (hp_hp2lm hp a2 L) as [lm|] eqn:E6; cbn [rbind] in E; [|discriminate].
    destruct (ss_inverse S L 0 lm) as [m|] eqn:E7; cbn [rbind] in E; [|discriminate]. apply Ok_inj in E.
    exists m. split; [auto|]. exists k, al, k2, k3, a2, lm. repeat (split; [assumption || reflexivity|]). assumption.
  - intros (kappa & -> & k & al & k2 & k3 & a2 & lm & E1 & E2 & E3 & E4 & E5 & E6 & E7).
    rewrite E1. cbn [rbind]. rewrite E2. cbn [rbind]. rewrite E3. cbn [rbind]. rewrite E4. cbn [rbind]. rewrite E5. cbn [rbind]. rewrite E6. cbn [rbind]. rewrite E7. reflexivity.
Qed.
Print Assumptions C72_lens_truth.
(** the file is the one that get_sim_data.py writes with the settings in it *)
Example C72_lens_download : filename_fits 12 0 16 = "takahasi_4096_000_zs16_kappa.fits"%string.
Proof. vm_compute. reflexivity. Qed.

Lemma rsum_incl : forall (g : nat -> R) l l', (forall p, 0 <= g p) -> NoDup l -> (forall p, In p l -> In p l') -> rsum (map g l) <= rsum (map g l').
Proof.
  intros g l. induction l as [|x l IH]; intros l' Hg ND HI.
  - cbn. clear - Hg. induction l' as [|y l' IH]; [cbn; lra|]. cbn [map rsum fold_right] in *. unfold rsum in IH. specialize (Hg y). lra.
  - inversion ND as [|? ? Nx ND']; subst. destruct (in_split x l' (HI x (or_introl eq_refl))) as (l1 & l2 & ->).
    specialize (IH (l1 ++ l2) Hg ND'). rewrite map_app, rsum_app in *. cbn [map]. cbn [rsum fold_right] in *.
    assert (Q : forall p, In p l -> In p (l1 ++ l2)).
    { intros p Ip. assert (J := HI p (or_intror Ip)). apply in_app_or in J. apply in_or_app. destruct J as [J|[J|J]]; auto. subst p. contradiction. }
    specialize (IH Q). unfold rsum in *. lra.
Qed.
Lemma visible_positions : forall vis v, length v = length vis -> visible_part vis v = map (fun p => nth p v (RtoC 0)) (set_positions vis).
Proof. intros vis v H. rewrite <- visible_part_select by exact H. apply select_spec. congruence. Qed.

(** The relative error printed for an image, R2E = |s - s0|^2 / |s0|^2 over the
    pixels that are shown, with s and s0 the shears of image and truth.  With the
    mask on, these pixels are among those of the survey, and the error is at most
    the misfit of the sample over the power of the shear. *)
Theorem C72_lens_error : forall hp S sl junk inv infile L gal_b setting kappa shear ps t pr q X k s f preds lp l2 p vis w obs prd e,
  (1 <= L)%nat -> survey L gal_b ps -> hp_read_map hp infile = hp_read_map hp "takahasi_4096_000_zs16_kappa.fits" ->
  lens_truth hp S L = Ok (mkCMap L (2 * L - 1) kappa) -> shear_of S L kappa shear ->
  SWT_init sl junk L 2 2 1 0 false = Ok t -> known_setting setting = true ->
  lensing_operator hp S sl junk inv infile L (mw_thetas L) (mw_phis L) gal_b setting = Ok f ->
  P_ExpLens.image_of t setting X k -> shear_of S L k s -> fo_forward f X = Ok preds -> logpi f pr q X preds = Ok (lp, l2, p) ->
  visible false L gal_b vis -> WL_init (Z.of_nat L) (Some (Measure.mkMask [L; (2 * L - 1)%nat] vis)) None = Ok w ->
  WL_forward S w kappa = Ok obs -> WL_forward S w k = Ok prd -> rel_squared_error prd obs = Ok e -> 0 < sum_squares obs ->
  e * sum_squares obs = rsum (map2 (fun x y : C => Cmod (x - y)%C ^ 2) prd obs) /\
  0 <= e <= sqrt 2 * Re l2 / (gal_weight ^ 4 * sum_squares obs) /\ Im l2 = - Re l2.
Proof.
  intros hp S sl junk inv infile L gal_b setting kappa shear ps t pr q X k s f preds lp l2 p vis w obs prd e
    HL HS HF HT HK ET K E HI HK2 EP EL HV Hw Ho Hp He Po.
  assert (TM : truth_map hp S infile L kappa).
  { apply C72_lens_truth in HT. destruct HT as (k0 & Q & T). injection Q as <-. unfold truth_map in *. rewrite HF. exact T. }
  assert (M := C50_misfit hp S sl junk inv infile L gal_b setting kappa shear ps t pr q X k s f preds lp l2 p HL HS TM HK ET K E HI HK2 EP EL).
  rewrite (C52_lensing_shear S L gal_b false vis w kappa shear HV HL Hw HK) in Ho. apply Ok_inj in Ho. subst obs.
  rewrite (C52_lensing_shear S L gal_b false vis w k s HV HL Hw HK2) in Hp. apply Ok_inj in Hp. subst prd.
  assert (Lv := proj1 HV). assert (Lsh := proj1 (proj2 HK)). assert (Ls := proj1 (proj2 HK2)).
  assert (LL : length (visible_part vis s) = length (visible_part vis shear)) by (rewrite !visible_positions, !map_length by congruence; reflexivity).
  apply C52_relative_error in He. specialize (He LL ltac:(lra)).
  set (N := rsum (map2 _ _ _)) in *. set (D := sum_squares (visible_part vis shear)) in *.
  assert (EN : N = rsum (map (fun p => Cmod (nth p shear (RtoC 0) - nth p s (RtoC 0))%C ^ 2) (set_positions vis))).
  { unfold N. rewrite !visible_positions by congruence. generalize (set_positions vis). intros l. clear. induction l as [|x l IH]; [reflexivity|].
    cbn [map map2 rsum fold_right]. unfold rsum in IH. rewrite IH. f_equal. f_equal. rewrite <- Cmod_opp. f_equal. ring. }
  set (g := fun p => Cmod (nth p shear (RtoC 0) - nth p s (RtoC 0))%C ^ 2) in *.
  assert (Gp : forall p, 0 <= g p) by (intros; unfold g; apply pow2_ge_0).
  assert (ND : NoDup (set_positions vis)) by (unfold set_positions; apply NoDup_filter, seq_NoDup).
  assert (Le : N <= rsum (map g ps)).
  { rewrite EN. apply rsum_incl; [exact Gp|exact ND|]. intros i Ii. unfold set_positions in Ii. apply filter_In in Ii. destruct Ii as (I1 & I2).
    apply in_seq in I1. apply HS. split; [lia|]. apply C52_lensing_mask. destruct (proj1 (proj2 HV i ltac:(lia)) I2) as [Q|Q]; [discriminate|exact Q]. }
  assert (N0 : 0 <= N). { rewrite EN. apply Rle_trans with (rsum (map g [])); [cbn; lra|]. apply rsum_incl; [exact Gp|constructor|intros ? []]. }
  assert (S2 : 0 < sqrt 2) by (apply sqrt_lt_R0; lra). assert (G4 : 0 < gal_weight ^ 4) by (apply pow_lt, gal_weight_pos).
  assert (RE : Re l2 = gal_weight ^ 4 * rsum (map g ps) / sqrt 2).
  { rewrite M. unfold Re, Cdiv, Cmult, Cinv, Cminus, Cplus, Copp, Ci, RtoC. cbn -[pow sqrt]. unfold g. field_simplify; [|lra..].
    replace (sqrt 2 ^ 2) with (sqrt 2 * sqrt 2) by ring. field. lra. }
  assert (IM : Im l2 = - (gal_weight ^ 4 * rsum (map g ps) / sqrt 2)).
  { rewrite M. unfold Im, Cdiv, Cmult, Cinv, Cminus, Cplus, Copp, Ci, RtoC. cbn -[pow sqrt]. unfold g. field_simplify; [|lra..].
    replace (sqrt 2 ^ 2) with (sqrt 2 * sqrt 2) by ring. field. lra. }
  split; [rewrite He; field; lra|]. split; [|rewrite IM, RE; reflexivity].
  rewrite He, RE. split; [apply Rmult_le_pos; [exact N0|left; apply Rinv_0_lt_compat; exact Po]|].
  replace (sqrt 2 * (gal_weight ^ 4 * rsum (map g ps) / sqrt 2) / (gal_weight ^ 4 * D)) with (rsum (map g ps) / D).
  - apply Rmult_le_compat_r; [left; apply Rinv_0_lt_compat; exact Po|exact Le].
  - assert (G := gal_weight_pos). field. lra.
Qed.
Print Assumptions C72_lens_error.

(** ** Phase velocity *)

(** np.loadtxt of n rows of c numbers, column j *)
Theorem C72_column : forall rows n c j, table rows n c ->
  ((2 <= n)%nat -> (2 <= c)%nat -> (j < c)%nat -> exists v, loadtxt_column rows j = Ok v /\ length v = n /\
     forall i, (i < n)%nat -> nth i v 0 = cell rows i j) /\
  (((n <= 1)%nat \/ (c = 1)%nat \/ (c <= j)%nat) -> loadtxt_column rows j = Raise IndexError).
Proof.
  intros rows n c j (Ln & Hc). split.
  - intros Hn H2 Hj. destruct rows as [|r [|r2 rows]]; cbn in Ln; [lia|lia|]. unfold loadtxt_column.
    assert (FB : forallb (fun x => Nat.eqb (length x) (length r)) (r2 :: rows) = true).
    { apply forallb_forall. intros x Ix. rewrite (Hc r), (Hc x) by (cbn; auto). apply Nat.eqb_refl. }
    rewrite FB, (Hc r) by (left; reflexivity).
    rewrite (proj2 (Nat.eqb_neq c 1)) by lia. rewrite (proj2 (Nat.leb_gt c j)) by lia. cbn [orb].
    eexists. split; [reflexivity|]. split; [rewrite map_length; exact Ln|]. intros i Hi.
    rewrite (nth_map_in _ _ _ _ []) by (cbn [length]; lia). reflexivity.
  - intros Hx. destruct rows as [|r [|r2 rows]]; [reflexivity|reflexivity|]. cbn in Ln. unfold loadtxt_column.
    assert (FB : forallb (fun x => Nat.eqb (length x) (length r)) (r2 :: rows) = true).
    { apply forallb_forall. intros x Ix. rewrite (Hc r), (Hc x) by (cbn; auto). apply Nat.eqb_refl. }
    rewrite FB, (Hc r) by (left; reflexivity). destruct (Nat.eqb_spec c 1) as [Q|Q]; [reflexivity|].
    destruct (Nat.leb_spec c j) as [Q2|Q2]; [reflexivity|lia].
Qed.
Print Assumptions C72_column.
(** rows of different lengths *)
Theorem C72_column_ragged : forall r rows x j, In x rows -> length x <> length r -> loadtxt_column (r :: rows) j = Raise ValueError.
Proof.
  intros r rows x j Ix Nx. destruct rows as [|r2 rows]; [contradiction|]. unfold loadtxt_column.
  assert (FB : forallb (fun x => Nat.eqb (length x) (length r)) (r2 :: rows) = false).
  { apply Bool.not_true_is_false. intros Q. rewrite forallb_forall in Q. specialize (Q x Ix). apply Nat.eqb_eq in Q. contradiction. }
  rewrite FB. reflexivity.
Qed.
Print Assumptions C72_column_ragged.

(** The three files must exist, in the order in which they are opened. *)
Theorem C72_phase_files : forall fs,
  (forall T P d, phase_compared fs = Ok (T, P, d) <->
     pf_load fs "GDM40_L28.npy" = Some T /\ pf_npz fs "0S254L28.npz"%string = Some P /\
     exists rows v, pf_txt fs "synthetic_GDM40_0S254_L28.txt" = Some rows /\ loadtxt_column rows 4 = Ok v /\ d = map RtoC v) /\
  ((pf_load fs "GDM40_L28.npy" = None \/ pf_npz fs "0S254L28.npz"%string = None \/ pf_txt fs "synthetic_GDM40_0S254_L28.txt" = None) ->
     phase_compared fs = Raise (OpError 2)).
Proof.
  intros fs. unfold phase_compared. split.
  - intros T P d. destruct (pf_load fs _) as [T'|]; cbn [opened_file rbind]; [|split; [discriminate|intros (Q & _); discriminate]].
    destruct (pf_npz fs _) as [P'|]; cbn [opened_file rbind]; [|split; [discriminate|intros (_ & Q & _); discriminate]].
    destruct (pf_txt fs _) as [rows|]; cbn [opened_file rbind]; [|split; [discriminate|intros (_ & _ & ? & ? & Q & _); discriminate]].
    destruct (loadtxt_column rows 4) as [v|] eqn:EV; cbn [rbind].
    + split.
      * intros Q. injection Q as <- <- <-. eauto 10.
      * intros (Q1 & Q2 & rows' & v' & Q3 & Q4 & ->). injection Q1 as <-. injection Q2 as <-. injection Q3 as <-. rewrite EV in Q4. injection Q4 as <-. reflexivity.
    + split; [discriminate|]. intros (_ & _ & rows' & v' & Q3 & Q4 & _). injection Q3 as <-. congruence.
  - intros H. destruct (pf_load fs _) as [T'|]; cbn [opened_file rbind]; [|reflexivity].
    destruct (pf_npz fs _) as [P'|]; cbn [opened_file rbind]; [|reflexivity].
    destruct (pf_txt fs _) as [rows|]; cbn [opened_file rbind]; [|reflexivity]. destruct H as [H|[H|H]]; discriminate.
Qed.
Print Assumptions C72_phase_files.

Lemma rsum_bounds : forall (a b : nat -> R) lo hi n, (forall i, (i < n)%nat -> 0 <= a i) -> (forall i, (i < n)%nat -> 0 < b i) ->
  (forall i, (i < n)%nat -> lo <= b i <= hi) ->
  lo * rsum (map (fun i => a i / b i) (seq 0 n)) <= rsum (map a (seq 0 n)) <= hi * rsum (map (fun i => a i / b i) (seq 0 n)).
Proof.
  intros a b lo hi n Ha Hb Hl. assert (G : forall l, (forall i, In i l -> (i < n)%nat) ->
    lo * rsum (map (fun i => a i / b i) l) <= rsum (map a l) <= hi * rsum (map (fun i => a i / b i) l)).
  { induction l as [|x l IH]; intros Hi; [cbn; lra|]. cbn [map rsum fold_right]. unfold rsum in IH.
    specialize (IH ltac:(intros; apply Hi; right; auto)). assert (Hx := Hi x (or_introl eq_refl)).
    assert (A := Ha x Hx). assert (B := Hb x Hx). assert (L := Hl x Hx).
    assert (P : 0 <= a x / b x) by (apply Rmult_le_pos; [exact A|left; apply Rinv_0_lt_compat; exact B]).
    assert (E : a x = b x * (a x / b x)) by (field; lra).
    assert (lo * (a x / b x) <= a x <= hi * (a x / b x)) by (rewrite E at 2 3; split; apply Rmult_le_compat_r; lra).
    rewrite !Rmult_plus_distr_l. lra. }
  apply G. intros i Hi. apply in_seq in Hi. lia.
Qed.
Lemma rsum_index : forall (g : C -> C -> R) x y n, length x = n -> length y = n ->
  rsum (map2 g x y) = rsum (map (fun i => g (nth i x (RtoC 0)) (nth i y (RtoC 0))) (seq 0 n)).
Proof.
  intros g x y n Hx Hy. f_equal. apply (nth_ext _ _ 0 0); [rewrite map2_length, map_length, seq_length by congruence; exact Hx|].
  intros i Hi. rewrite map2_length in Hi by congruence. rewrite (CVec.nth_map2 _ _ _ _ (RtoC 0) (RtoC 0)) by congruence.
  rewrite (nth_map_in _ _ _ _ 0%nat) by (rewrite seq_length; lia). rewrite seq_nth by lia. reflexivity.
Qed.

(** For a run on the synthetic data set with its stored path matrix: the data
    compared with are the data inverted, the predictions for an image are those of
    the forward operator, and R2E is the sum of squared residuals over the sum of
    squared data: lo l2 <= R2E sum d^2 <= hi l2 when the variances of the data are
    between lo and hi. *)
Theorem C72_phase_error : forall sl junk inv build_path fs T P d rows n use_nsim L t f npz' pr q X m preds preds' lp l2 p e lo hi,
  phase_compared fs = Ok (T, P, d) -> pf_txt fs "synthetic_GDM40_0S254_L28.txt" = Some rows ->
  table rows n 8 -> (2 <= n)%nat -> m_rows P = n -> m_cols P = (L * (2 * L - 1))%nat ->
  SWT_init sl junk L 2 2 1 0 false = Ok t ->
  (use_nsim = true -> forall i, (i < n)%nat -> 0 <= cell rows i 7) ->
  phasevel_operator sl junk inv build_path (pf_npz fs) rows "0S254L28.npz" use_nsim "synthesis" L = (npz', Ok f) ->
  SWT_inverse t X = Ok m -> length m = (L * (2 * L - 1))%nat ->
  fo_forward f X = Ok preds -> logpi f pr q X preds = Ok (lp, l2, p) ->
  Path_forward P m = Ok preds' -> rel_squared_error preds' d = Ok e -> 0 < sum_squares d ->
  (forall i, (i < n)%nat -> 0 < path_variance rows use_nsim i /\ lo <= path_variance rows use_nsim i <= hi) ->
  d = d_val (fo_data f) /\ preds' = preds /\
  l2 = RtoC (rsum (map (fun i => Cmod (nth i preds (RtoC 0) - nth i d (RtoC 0))%C ^ 2 / path_variance rows use_nsim i) (seq 0 n))) /\
  e * sum_squares d = rsum (map (fun i => Cmod (nth i preds (RtoC 0) - nth i d (RtoC 0))%C ^ 2) (seq 0 n)) /\
  lo * Re l2 <= e * sum_squares d <= hi * Re l2.
Proof.
  intros sl junk inv bp fs T P d rows n un L t f npz' pr q X m preds preds' lp l2 p e lo hi
    EC ER HT Hn HR HC ET HS EF EI Lm ED Elp EP EE Pd HV.
  apply C72_phase_files in EC. destruct EC as (_ & EP0 & rows' & v & ER' & EV & Ed). rewrite ER in ER'. injection ER' as <-.
  destruct (proj1 (C72_column rows n 8 4 HT) Hn ltac:(lia) ltac:(lia)) as (v' & EV' & Lv & Hv). rewrite EV in EV'. apply Ok_inj in EV'. subst v'.
  destruct (C49_operator sl junk inv bp (pf_npz fs) rows n "0S254L28.npz" un "synthesis" L t 0 HT Hn eq_refl ET HS
    (or_introl (ex_intro _ P (conj EP0 HR)))) as (f' & P' & fs' & E' & MU & HR' & FC & FL & FD & IR & IC & IE & FS & FT & FN & ms & FM & HM & _).
  rewrite EF in E'. injection E' as _ <-.
  destruct MU as [(Q & _)|(Q & _)]; [|rewrite EP0 in Q; discriminate]. rewrite EP0 in Q. injection Q as <-.
  assert (Ld : length d = n) by (subst d; rewrite map_length; exact Lv).
  assert (DD : d = d_val (fo_data f)).
  { apply (nth_ext _ _ (RtoC 0) (RtoC 0)); [congruence|]. intros i Hi. rewrite Ld in Hi. rewrite FD by exact Hi. subst d.
    rewrite (nth_map_in _ _ _ _ 0) by congruence. rewrite Hv by exact Hi. reflexivity. }
  destruct (HM m ltac:(congruence)) as (Y & EY & LY & HY).
  assert (EYp : preds = Y).
  { unfold fo_forward in ED. rewrite FS, FM, FT in ED. cbn [attr rbind] in ED. change (String.eqb "synthesis" "analysis") with false in ED. cbv iota in ED.
    unfold swt_transform in ED. cbn [t_inverse] in ED. rewrite EI in ED. cbn [rbind] in ED. rewrite EY in ED. apply Ok_inj in ED. auto. }
  subst Y. assert (PP : preds' = preds).
  { unfold Path_forward in EP. rewrite Lm, HC, Nat.eqb_refl, np_dot_ok in EP by congruence. apply Ok_inj in EP. subst preds'.
    apply (nth_ext _ _ (RtoC 0) (RtoC 0)); [rewrite matvec_length; congruence|]. intros i Hi. rewrite matvec_length, HR in Hi. rewrite HY by exact Hi.
    rewrite nth_matvec by congruence. reflexivity. }
  split; [exact DD|]. split; [exact PP|].
  assert (L2 : l2 = RtoC (rsum (map (fun i => Cmod (nth i preds (RtoC 0) - nth i d (RtoC 0))%C ^ 2 / path_variance rows un i) (seq 0 n)))).
  { rewrite (logpi_value f pr q X preds n) in Elp by auto. destruct (pr_prior pr X); cbn [rbind] in Elp; [|discriminate]. cbv zeta in Elp. injection Elp as _ <- _.
    rewrite <- DD. set (w := map (fun i => (RtoC 1 / RtoC (path_variance rows un i))%C) (seq 0 n)).
    assert (Lw : length w = n) by (unfold w; rewrite map_length, seq_length; reflexivity).
    assert (DG : is_diagonal (fo_invcov f) w).
    { split; [congruence|]. split; [congruence|]. rewrite Lw. intros i j Hi Hj. rewrite IE by auto.
      unfold w. rewrite (nth_map_in _ _ _ _ 0%nat) by (rewrite seq_length; lia). rewrite seq_nth by lia. reflexivity. }
    assert (Lr : length (vsub d preds) = n) by (rewrite vsub_length; congruence).
    rewrite (quadform_diagonal _ _ _ DG) by congruence.
    assert (Q : map2 (fun a z => (a * RtoC (Cmod z ^ 2))%C) w (vsub d preds) =
      map (fun i => RtoC (Cmod (nth i preds (RtoC 0) - nth i d (RtoC 0))%C ^ 2 / path_variance rows un i)) (seq 0 n)).
    { apply (nth_ext _ _ (RtoC 0) (RtoC 0)); [rewrite map2_length, map_length, seq_length by congruence; exact Lw|].
      intros i Hi. rewrite map2_length, Lw in Hi by congruence. rewrite (CVec.nth_map2 _ _ _ _ (RtoC 0) (RtoC 0)) by congruence.
      rewrite (nth_map_in _ _ _ _ 0%nat) by (rewrite seq_length; lia). rewrite seq_nth by lia. cbn [Nat.add].
      unfold w. rewrite (nth_map_in _ _ _ _ 0%nat) by (rewrite seq_length; lia). rewrite seq_nth by lia. cbn [Nat.add].
      unfold vsub. rewrite (CVec.nth_map2 _ _ _ _ (RtoC 0) (RtoC 0)) by congruence.
      destruct (HV i Hi) as (Pv & _). rewrite <- (Cmod_opp (_ - _)%C). replace (- (nth i d (RtoC 0) - nth i preds (RtoC 0)))%C with (nth i preds (RtoC 0) - nth i d (RtoC 0))%C by ring.
      rewrite <- RtoC_div by lra. rewrite <- RtoC_mult. f_equal. unfold Rdiv. ring. }
    rewrite Q. generalize (seq 0 n). intros l. clear. induction l as [|x l IH]; [reflexivity|]. cbn [map csum fold_right rsum]. unfold csum, rsum in IH. rewrite IH, RtoC_plus. reflexivity. }
  split; [exact L2|]. apply C52_relative_error in EE. rewrite PP in EE. specialize (EE ltac:(congruence) ltac:(lra)).
  rewrite (rsum_index _ preds d n) in EE by congruence.
  assert (E1 : e * sum_squares d = rsum (map (fun i => Cmod (nth i preds (RtoC 0) - nth i d (RtoC 0))%C ^ 2) (seq 0 n))) by (rewrite EE; field; lra).
  split; [exact E1|]. rewrite E1, L2. unfold Re, RtoC. cbn [fst].
  apply (rsum_bounds (fun i => Cmod (nth i preds (RtoC 0) - nth i d (RtoC 0))%C ^ 2) (path_variance rows un)).
  - intros. apply pow2_ge_0.
  - intros i Hi. apply HV. exact Hi.
  - intros i Hi. apply HV. exact Hi.
Qed.
Print Assumptions C72_phase_error.

(** The truth has band limit 28.  Results with any other band limit, which main.py
    accepts (--L), are not compared: a readable file gives two figures and then a
    ValueError, before any number is printed. *)
Theorem C72_phase_bandlimit : forall rf ri inv fwd til analysis truth pm obs a f setting,
  full_shape truth 28 -> length (cm_buf truth) = (28 * 55)%nat -> (2 <= rs_L f <= 256)%nat -> rs_L f <> 28%nat ->
  rs_setting f = Some setting -> readable setting inv fwd (pa_burn a) f -> (forall v, ri 256%nat v <> []) ->
  (exists evo dM MAP, phasevel_plot rf ri inv fwd til analysis truth pm obs a f [] =
     ([OEvolution (file_name a "evolution" "png") evo; OMap (file_name a "MAP" "png") false dM], Raise ValueError) /\
     drawn rf ri (rs_L f) MAP centre0 dM) /\
  forall v, length v = (rs_L f * (2 * rs_L f - 1))%nat -> np_sub2 truth (mkCMap (rs_L f) (2 * rs_L f - 1) v) = Raise ValueError.
Proof.
  intros rf ri inv fwd til analysis truth pm obs a f setting Sh Lt HL NE Hset RD Hi. split.
  - destruct (readable_pieces false _ _ _ _ _ RD) as (evo & X & m & wv & rows & Hevo & HX & Lm & HM & _).
    unfold phasevel_plot. cbv zeta. rewrite sbind_slift. unfold key_setting. rewrite Hset. cbv beta iota.
    fwd_lift Hevo. rewrite sbind_emit. fwd_lift HX. fwd_lift HM. cbn [fst snd].
    unfold draw at 1; rewrite sbind_assoc; rewrite sbind_slift.
    match goal with |- context [plot_map ?rf ?ri ?g ?m] => destruct (plot_map_unmasked rf ri g m Hi) as (d & H); [cbn [cm_rows]; lia|reflexivity|reflexivity|] end.
    rewrite H. cbv beta iota. rewrite sbind_emit. rewrite sbind_slift. unfold map_sub. rewrite (proj1 Sh).
    rewrite (proj2 (Nat.eqb_neq 28 (rs_L f))) by lia. cbn [andb]. eexists evo, _, (real_of m).
    split; [reflexivity|]. eapply drawn_intro. exact H.
  - intros v Lv. destruct truth as [tr tc tb]. destruct Sh as (S1 & S2). cbn [cm_rows cm_cols cm_buf] in *. subst tr tc.
    destruct (C72_subtraction 28 (rs_L f) tb v ltac:(lia) ltac:(lia) Lt Lv) as (_ & Q & _). apply Q; lia.
Qed.
Print Assumptions C72_phase_bandlimit.

(** not every results file of the experiment can be plotted *)
Theorem C72_phase_bandlimit_refuted : exists inv fwd a f setting, rs_setting f = Some setting /\ readable setting inv fwd (pa_burn a) f /\
  (rs_L f <= 256)%nat /\
  forall rf ri til analysis truth pm obs, full_shape truth 28 -> length (cm_buf truth) = (28 * 55)%nat -> (forall v, ri 256%nat v <> []) ->
    forall outs, phasevel_plot rf ri inv fwd til analysis truth pm obs a f [] <> (outs, Ok tt).
Proof.
  set (im := [RtoC 1; RtoC 2; RtoC 3; RtoC 4; RtoC 5; RtoC 6]).
  set (a := mkPlotArgs "." "" 0 false false). set (f := mkResults 2 (Some "synthesis"%string) 2 [-2; -1] [im; im]).
  assert (RD : readable "synthesis" Ok Ok (pa_burn a) f).
  { unfold readable. cbn [rs_L rs_logpi rs_chain rs_nsamples f pa_burn a length]. split; [lia|]. split; [discriminate|]. split; [lia|]. split; [reflexivity|]. split; [lia|].
    intros s Is. split; [|congruence]. exists s. split; [left; split; reflexivity|]. destruct Is as [<-|[<-|[]]]; reflexivity. }
  exists Ok, Ok, a, f, "synthesis"%string. split; [reflexivity|]. split; [exact RD|]. split; [cbn; lia|].
  intros rf ri til analysis truth pm obs Sh Lt Hi outs E.
  destruct (C72_phase_bandlimit rf ri Ok Ok til analysis truth pm obs a f "synthesis" Sh Lt) as ((evo & dM & MAP & Q & _) & _);
    [cbn; lia|cbn; lia|reflexivity|exact RD|exact Hi|]. rewrite Q in E. discriminate.
Qed.
Print Assumptions C72_phase_bandlimit_refuted.

(** The name of the data file is fixed too: a run on other data can fit them
    exactly while the relative error printed is not zero. *)
Theorem C72_phase_other_data_refuted : exists sl junk inv build_path fs T P d rows t f pr q X m lp l2 p preds e,
  phase_compared fs = Ok (T, P, d) /\ table rows 2 8 /\ SWT_init sl junk 1 2 2 1 0 false = Ok t /\
  phasevel_operator sl junk inv build_path (pf_npz fs) rows "0S254L28.npz" false "synthesis" 1 = (pf_npz fs, Ok f) /\
  SWT_inverse t X = Ok m /\ fo_forward f X = Ok preds /\ logpi f pr q X preds = Ok (lp, l2, p) /\ l2 = RtoC 0 /\
  Path_forward P m = Ok preds /\ rel_squared_error preds d = Ok e /\ e <> 0.
Proof.
  set (P := mkMat 2 1 (fun _ _ => RtoC 1)).
  set (rows := [[0; 0; 0; 0; 1; 1; 0; 1]; [0; 0; 0; 0; 1; 1; 0; 1]]). set (rows0 := [[0; 0; 0; 0; 2; 1; 0; 1]; [0; 0; 0; 0; 2; 1; 0; 1]]).
  set (npz := fun s : string => if String.eqb s "0S254L28.npz" then Some P else None).
  set (fs := mkPhaseFiles (fun _ => Some (mkCMap 1 1 [RtoC 1])) npz (fun _ => Some rows0)).
  assert (T : table rows 2 8) by (split; [reflexivity|intros row [<-|[<-|[]]]; reflexivity]).
  assert (ET : SWT_init ex_s2let (fun _ => RtoC 0) 1 2 2 1 0 false = Ok (match SWT_init ex_s2let (fun _ => RtoC 0) 1 2 2 1 0 false with Ok t => t | Raise _ => mkSWT (mkS2P 0 0 0 0 0 0) 0 0 (fun _ _ => Raise ValueError) (fun _ _ _ => Raise ValueError) (fun _ _ _ => Raise ValueError) (fun _ _ => Raise ValueError) 0 0 0 end)) by reflexivity.
  set (t := match SWT_init ex_s2let _ _ _ _ _ _ _ with Ok t => t | Raise _ => _ end) in ET.
  destruct (C49_operator ex_s2let (fun _ => RtoC 0) (fun A => Ok A) (fun _ _ _ => Raise ValueError) npz rows 2 "0S254L28.npz" false "synthesis" 1 t 1 T (le_n 2) eq_refl ET ltac:(discriminate)
    (or_introl (ex_intro _ _ (conj eq_refl eq_refl))))
    as (f & P' & fs' & E & MU & _ & _ & FL & FD & IR & IC & IE & FS & FT & FN & ms & FM & HF & _).
  destruct MU as [(E' & ->)|(E' & _)]; [|discriminate]. injection E' as <-.
  set (X := [RtoC 1; RtoC 1]). assert (EI : SWT_inverse t X = Ok [RtoC 1]) by reflexivity.
  destruct (HF [RtoC 1] eq_refl) as (Y & EY & LY & HY).
  assert (YY : Y = [RtoC 1; RtoC 1]).
  { destruct Y as [|y0 [|y1 [|]]]; try discriminate. assert (A0 := HY 0%nat ltac:(lia)). assert (A1 := HY 1%nat ltac:(lia)). cbn in A0, A1. rewrite A0, A1.
    f_equal; [|f_equal]; unfold Cplus, Cmult, RtoC; cbn; f_equal; ring. }
  subst Y. assert (EP : fo_forward f X = Ok [RtoC 1; RtoC 1]).
  { unfold fo_forward. rewrite FS, FM, FT. cbn [attr rbind]. change (String.eqb "synthesis" "analysis") with false. cbv iota.
    unfold swt_transform. cbn [t_inverse]. rewrite EI. cbn [rbind]. exact EY. }
  assert (ED : d_val (fo_data f) = [RtoC 1; RtoC 1]).
  { destruct (d_val (fo_data f)) as [|y0 [|y1 [|]]]; try discriminate. assert (A0 := FD 0%nat ltac:(lia)). assert (A1 := FD 1%nat ltac:(lia)). cbn in A0, A1. congruence. }
  set (pr := mkPrior (fun _ => Ok 0) (fun x : vec => Ok x)). set (q := mkNum 1 1 1 false).
  assert (EL := logpi_value f pr q X [RtoC 1; RtoC 1] 2 FL eq_refl IR IC). cbn [pr pr_prior rbind] in EL. cbv zeta in EL.
  eexists ex_s2let, (fun _ => RtoC 0), (fun A => Ok A), (fun _ _ _ => Raise ValueError), fs, _, P, _, rows, t, f, pr, q, X, [RtoC 1], _, _, _, [RtoC 1; RtoC 1], _.
  split; [reflexivity|]. split; [exact T|]. split; [exact ET|]. split; [exact E|]. split; [exact EI|]. split; [exact EP|]. split; [exact EL|].
  split.
  { rewrite ED. replace (vsub [RtoC 1; RtoC 1] [RtoC 1; RtoC 1]) with (vzero 2) by (unfold vsub, vzero; cbn; f_equal; [|f_equal]; unfold Cminus, Cplus, Copp, RtoC; cbn; f_equal; ring).
    rewrite <- cdot_matvec_quadform by (rewrite ?IR, ?IC; reflexivity). unfold vzero. cbn [repeat]. unfold cdot.
    assert (Lm := matvec_length (fo_invcov f) [RtoC 0; RtoC 0]). rewrite IR in Lm. destruct (matvec _ _) as [|u [|w [|]]]; try discriminate. cbn.
    unfold Cplus, Cmult, Cconj, RtoC; cbn; f_equal; ring. }
  split.
  { unfold Path_forward. cbn. do 2 f_equal; [|f_equal]; unfold Cplus, Cmult, RtoC; cbn; f_equal; ring. }
  split; [reflexivity|]. apply pow_nonzero. unfold norm.
  assert (A : nrm2 [(RtoC 1 - RtoC 2)%C; (RtoC 1 - RtoC 2)%C] = 2).
  { unfold nrm2. cbn [map fold_right rsum]. rewrite <- RtoC_minus, Cmod_R. replace (1 - 2) with (- (1)) by ring. rewrite Rabs_Ropp, Rabs_R1. ring. }
  assert (B : nrm2 [RtoC 2; RtoC 2] = 8) by (unfold nrm2; cbn [map fold_right rsum]; rewrite Cmod_R, Rabs_right by lra; ring).
  change (sqrt (nrm2 [(RtoC 1 - RtoC 2)%C; (RtoC 1 - RtoC 2)%C]) / sqrt (nrm2 [RtoC 2; RtoC 2]) <> 0). rewrite A, B.
  apply Rgt_not_eq, Rdiv_lt_0_compat; apply sqrt_lt_R0; lra.
Qed.
Print Assumptions C72_phase_other_data_refuted.

(** ** Concrete cases *)

(** images of 1 and 6 pixels *)
Example C72_case_subtraction : let one := mkCMap 1 1 [RtoC 5] in let six := mkCMap 2 3 (map RtoC [1; 2; 3; 4; 5; 6]) in
  np_sub2 one six = Ok (mkCMap 2 3 (map (fun r => RtoC 5 - RtoC r)%C [1; 2; 3; 4; 5; 6])) /\
  np_sub2 six one = Ok (mkCMap 2 3 (map (fun r => RtoC r - RtoC 5)%C [1; 2; 3; 4; 5; 6])) /\
  np_sub2 six (mkCMap 3 5 (repeat (RtoC 0) 15)) = Raise ValueError /\ np_sub2 six six = Ok (mkCMap 2 3 (map (fun r => RtoC r - RtoC r)%C [1; 2; 3; 4; 5; 6])).
Proof. repeat split; reflexivity. Qed.
(** a map of two pixels of which one coefficient is kept, in kilometres *)
Example C72_case_topo : let lib := mkTopoLib (fun s => if String.eqb s "ETOPO1_Ice_hpx_256.fits" then Ok [RtoC 3000; RtoC 7] else Raise ValueError)
    (fun m l => if (l =? 0)%Z then Ok (firstn 1 m) else Raise ValueError) (fun m _ => Ok m) (fun m _ _ => Ok m) (fun _ => Raise ValueError) (fun _ _ => Ok 0%Z) (fun _ _ => Ok 0%Z) in
  exists z, topo_truth lib (fun m _ => Ok m) 1 = Ok (mkCMap 1 1 [z]) /\ z = RtoC 3 /\ topo_truth lib (fun m _ => Ok m) 2 = Raise ValueError.
Proof.
  intros lib. eexists. split; [reflexivity|]. split; [|reflexivity]. unfold Cdiv, Cmult, Cinv, RtoC. cbn. f_equal; field.
Qed.
(** the smoothing by 50 arcmin is the only change made by this healpy *)
Example C72_case_lens : let hp := mkHp (fun s => if String.eqb s "takahasi_4096_000_zs16_kappa.fits" then Ok [RtoC 1] else Raise ValueError)
    (fun m l => if (l =? 1)%Z then Ok m else Raise ValueError) (fun m n => if (n =? 2)%Z then Ok m else Raise ValueError)
    (fun m r => Ok (map (fun z => RtoC (r * 180 / PI) * z)%C m)) (fun m _ => Ok m) in
  let S := mkSsht (fun _ _ x => Ok x) (fun L _ x => Ok (x ++ vzero (L * (2 * L - 1) - length x))) (fun _ _ x => Ok x) (fun _ _ x => Ok x) in
  exists z, lens_truth hp S 2 = Ok (mkCMap 2 3 (z :: vzero 5)) /\ z = RtoC (5 / 6).
Proof.
  intros hp S. eexists. split; [reflexivity|]. unfold deg2rad. rewrite <- RtoC_mult. f_equal. field. apply PI_neq0.
Qed.
(** two observations *)
Example C72_case_phase : let rows := [[0; 1; 2; 3; 44; 5; 6; 7]; [0; 1; 2; 3; 45; 5; 6; 7]] in
  let P := mkMat 2 1 (fun _ _ => RtoC 1) in let T := mkCMap 28 55 (vzero (28 * 55)) in
  let fs := mkPhaseFiles (fun s => if String.eqb s "GDM40_L28.npy" then Some T else None) (fun s => if String.eqb s "0S254L28.npz" then Some P else None)
              (fun s => if String.eqb s "synthetic_GDM40_0S254_L28.txt" then Some rows else None) in
  phase_compared fs = Ok (T, P, [RtoC 44; RtoC 45]) /\ loadtxt_column [[1; 2]] 0 = Raise IndexError /\ loadtxt_column [[1]; [2]] 0 = Raise IndexError /\
  loadtxt_column [[1; 2]; [3]] 0 = Raise ValueError /\ loadtxt_column [[1; 2]; [3; 4]] 1 = Ok [2; 4].
Proof. repeat split; reflexivity. Qed.
