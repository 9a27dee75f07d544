(** C52, continued: the phase velocity script. *)
From Coq Require Import List ZArith Lia Bool Reals Lra String DecimalString.
From Coquelicot Require Import Coquelicot.
From Verif Require Import PyBase PyBaseFacts CVec RSort Utils UtilsProof Prior PriorProof Measure MeasProof Forward FwdProof Mcmc Uncertainty UncProof Plotting P_Unc P_Plot P_Prior P_Mcmc ExpPlot ExpPlotSpec P_ExpPlot.
Import ListNotations.
Open Scope R_scope.
Notation length := List.length.

Lemma sum_squares_nrm2 : forall v, sum_squares v = nrm2 v. Proof. reflexivity. Qed.
Theorem C52_relative_error : forall p d e, rel_squared_error p d = Ok e -> relative_error d p e.
Proof.
  intros p d e E. unfold rel_squared_error in E. intros Lp Nz. rewrite np_sub_same in E by exact Lp. cbn [rbind] in E. apply Ok_inj in E. subst e.
  rewrite sum_squares_nrm2 in *. unfold norm.
  assert (P : forall v, 0 <= nrm2 v).
  { clear. intros v. unfold nrm2. induction v as [|z v IH]; [cbn; lra|]. unfold rsum in *. cbn [map fold_right]. assert (Q := pow2_ge_0 (Cmod z)). lra. }
  assert (Pd := P d). unfold Rdiv. rewrite Rpow_mult_distr, pow_inv. rewrite !pow2_sqrt by apply P. f_equal.
  clear - Lp. revert d Lp. induction p as [|x p IH]; intros [|y d] Lp; try discriminate; [reflexivity|]. unfold nrm2, rsum, vsub in *. cbn [map2 map fold_right].
  rewrite IH by (injection Lp; auto). reflexivity.
Qed.
Print Assumptions C52_relative_error.

Definition from_number (a : plot_args) (name : string) (i : nat) (ds : list drawing) : list output :=
  map (fun j => OMap (file_name a (name ++ NilZero.string_of_uint (Nat.to_uint (i + j)))%string "png") false (nth j ds (mkDrawing 0 [] None None))) (seq 0 (length ds)).
Lemma from_number_cons : forall a name i d ds, from_number a name i (d :: ds) =
  OMap (file_name a (name ++ NilZero.string_of_uint (Nat.to_uint i))%string "png") false d :: from_number a name (S i) ds.
Proof.
  intros. unfold from_number. cbn [length seq map nth]. rewrite Nat.add_0_r. f_equal. rewrite <- seq_shift, map_map. apply map_ext. intros j.
  rewrite <- plus_n_Sm. reflexivity.
Qed.
Lemma from_number_0 : forall a name ds, from_number a name 0 ds = numbered a name ds. Proof. reflexivity. Qed.
Lemma draw_scales_ok : forall rf ri a v ms i o o', draw_scales rf ri a v i ms o = (o', Ok tt) ->
  exists ds, Forall2 (fun w d => exists after, plot_map rf ri (mkCMap (mp_rows w) (mp_cols w) (map RtoC (mp_buf w))) (from0 (Some v)) = Ok (d, after)) ms ds /\
    o' = (o ++ from_number a "ci_map_scale" i ds)%list.
Proof.
  induction ms as [|m ms IH]; intros i o o' E; cbn [draw_scales] in E.
  - apply sret_ok in E. destruct E as (-> & _). exists []. split; [constructor|]. rewrite app_nil_r. reflexivity.
  - lstep E d Hd. estep E. apply IH in E. destruct E as (ds & F & ->). exists (fst d :: ds). split.
    + constructor; [|exact F]. exists (snd d). destruct d as [d1 d2]. exact Hd.
    + rewrite from_number_cons, <- app_assoc. reflexivity.
Qed.
Lemma save_figs_ok : forall a figs i o o', save_figs a i figs o = (o', Ok tt) -> o' = (o ++ from_number a "mean_scale" i figs)%list.
Proof.
  induction figs as [|d figs IH]; intros i o o' E; cbn [save_figs] in E.
  - apply sret_ok in E. destruct E as (-> & _). rewrite app_nil_r. reflexivity.
  - estep E. apply IH in E. rewrite from_number_cons. rewrite E, <- app_assoc. reflexivity.
Qed.
Lemma save_arrays_ok : forall a mean MAP ci diff dm o o', save_arrays a (map Some mean) (map Some MAP) (map (fun r => Some (RtoC r)) ci) (map Some diff) (map Some dm) o = (o', Ok tt) ->
  o' = (o ++ saved_arrays a mean MAP (map RtoC ci) diff dm)%list.
Proof.
  intros a mean MAP ci diff dm o o' E. unfold save_arrays, saved_arrays in *. destruct (pa_npy a).
  - estep E. estep E. estep E. estep E. apply emit_ok in E. rewrite E. rewrite <- !app_assoc. unfold saves. rewrite map_map. reflexivity.
  - apply sret_ok in E. destruct E as (-> & _). rewrite app_nil_r. reflexivity.
Qed.
Lemma scales_vmax_ok : forall rf ri ms r0 v, scales_vmax rf ri (RtoC r0) ms = Ok v ->
  exists os, Forall2 (fun w o => oversample rf ri (mkCMap (mp_rows w) (mp_cols w) (map RtoC (mp_buf w))) 256 = Ok o) ms os /\
    ((forall o z, In o os -> In z (cm_buf o) -> snd z = 0) -> exists r, v = RtoC r /\ largest (r0 :: map fst (List.concat (map cm_buf os))) r).
Proof.
  assert (G : forall rf ri ms v0 v, scales_vmax rf ri v0 ms = Ok v ->
    exists os, Forall2 (fun w o => oversample rf ri (mkCMap (mp_rows w) (mp_cols w) (map RtoC (mp_buf w))) 256 = Ok o) ms os /\
      (snd v0 = 0 -> (forall o z, In o os -> In z (cm_buf o) -> snd z = 0) -> exists r, v = RtoC r /\ largest (fst v0 :: map fst (List.concat (map cm_buf os))) r)).
  { intros rf ri ms. induction ms as [|m ms IH]; intros v0 v E; cbn [scales_vmax] in E.
    - apply Ok_inj in E. subst v. exists []. split; [constructor|]. intros H0 _. exists (fst v0). split; [apply real_eq; exact H0|].
      split; [left; reflexivity|]. intros x [<-|[]]. lra.
    - destruct (oversample rf ri _ 256) as [o|] eqn:Eo; cbn [rbind] in E; [|discriminate].
      destruct (np_max (cm_buf o)) as [x|] eqn:Ex; cbn [rbind] in E; [|discriminate]. apply IH in E. destruct E as (os & F & H).
      exists (o :: os). split; [constructor; assumption|]. intros H0 Hr. apply np_max_spec in Ex. destruct Ex as (Ix & Hx).
      assert (Sx : snd x = 0) by (apply (Hr o x); [left; reflexivity|exact Ix]).
      set (v1 := if clex_ltb v0 x then x else v0) in *.
      assert (S1 : snd v1 = 0) by (unfold v1; destruct (clex_ltb v0 x); assumption).
      assert (B1 : fst v0 <= fst v1 /\ fst x <= fst v1).
      { unfold v1. destruct (clex_ltb v0 x) eqn:El; [apply clex_ltb_fst in El|apply clex_ltb_fst_false in El]; lra. }
      destruct (H S1) as (r & Er & (Ir & Br)); [intros; eapply Hr; [right|]; eauto|]. exists r. split; [exact Er|]. cbn [map List.concat] in *. rewrite map_app. split.
      + destruct Ir as [Ir|Ir]; [|right; apply in_or_app; right; exact Ir]. rewrite <- Ir. unfold v1. destruct (clex_ltb v0 x); [right; apply in_or_app; left; apply in_map; exact Ix|left; reflexivity].
      + assert (R1 := Br (fst v1) (or_introl eq_refl)). intros y [<-|Iy]; [lra|]. apply in_app_or in Iy. destruct Iy as [Iy|Iy]; [|apply Br; right; exact Iy].
        apply in_map_iff in Iy. destruct Iy as (z & <- & Iz). specialize (Hx z Iz). lra. }
  intros rf ri ms r0 v E. destruct (G _ _ _ _ _ E) as (os & F & H). exists os. split; [exact F|]. intros Hr. exact (H eq_refl Hr).
Qed.

(** what a complete run leaves behind; the credible range is that of alpha =
    0.01, whatever the title says *)
Theorem C52_phasevel : forall rf ri inv fwd til analysis truth pm obs a f outs, (forall z, In z (cm_buf truth) -> snd z = 0) ->
  phasevel_plot rf ri inv fwd til analysis truth pm obs a f [] = (outs, Ok tt) ->
  phasevel_report rf ri inv fwd til analysis truth pm obs a f outs.
Proof.
  intros rf ri inv fwd til analysis truth pm obs a f outs Ht E. unfold phasevel_plot in E. cbv zeta in E. unfold phasevel_report. cbv zeta.
  set (L := rs_L f) in *. set (npix := (L * (2 * L - 1))%nat) in *.
  lstep E setting Hset. lstep E evo Hevo. estep E. lstep E X HX. lstep E M HM. dstep E dM HdM.
  lstep E diff Hdiff. lstep E c Hc. dstep E dd Hdd. estep E. lstep E rows Hrows. lstep E q Hq.
  assert (Hci : credible_interval_range (mkChain (map (map fst) rows) npix) (1 / 100) = Ok (map2 (fun lo hi => hi - lo) (fst q) (snd q))).
  { unfold credible_interval_range. rewrite Hq. reflexivity. }
  set (ci := map2 (fun lo hi => hi - lo) (fst q) (snd q)) in *. dstep E dci Hdci. lstep E ws Hws. lstep E v Hv.
  apply sbind_ok in E. destruct E as (u & o1 & E1 & E). destruct u. apply draw_scales_ok in E1. destruct E1 as (ds & Fds & ->).
  set (mean := pix_mean npix rows) in *. dstep E dmean Hdmean. lstep E figs Hfigs.
  apply sbind_ok in E. destruct E as (u & o1 & E1 & E). destruct u. apply save_figs_ok in E1. subst o1.
  lstep E dm Hdm. estep E. estep E. lstep E pM HpM. lstep E eM HeM. estep E. lstep E pme Hpm. lstep E em Hem. estep E.
  apply save_arrays_ok in E.
  assert (Es := estimates_ok false setting inv fwd (pa_burn a) f X M rows HX HM Hrows). cbv iota in Es.
  assert (NE : rows <> []).
  { intros ->. unfold np_quantiles in Hq. cbn [map ch_rows] in Hq. destruct (_ && _)%bool; discriminate. }
  assert (Av := C52_mean npix rows NE). fold mean in Av.
  apply map_sub_difference in Hdiff. destruct Hdiff as (Sh & Hdiff). apply map_sub_difference in Hdm. destruct Hdm as (_ & Hdm).
  assert (Rd := difference_real _ _ _ Hdiff Ht (estimates_real _ _ _ _ _ _ _ _ _ Es)).
  destruct (C52_cbar _ _ Rd Hc) as (c' & -> & Lc). rewrite cap100_value in Hdd.
  assert (Rc : ranges_of npix rows (1 / 100) ci) by (apply ranges_of_cir; [exact Hci|exact NE|lra]).
  destruct (C52_map_sample (rs_logpi f) (rs_chain f)) as (S1 & _). destruct (S1 X HX) as (k & _ & Ek).
  exists setting, evo, (fst M), (snd M), rows, ci, mean, diff, dm, c', (fst dM), (fst dd), (fst dci), (fst dmean), (length X), ws, v, ds, figs, pM, pme, eM, em.
  split; [unfold key_setting in Hset; destruct (rs_setting f); [apply Ok_inj in Hset; subst; reflexivity|discriminate]|].
  split; [reflexivity|]. split; [exact Es|]. split; [exact Sh|]. split; [exact NE|]. split; [exact Rc|]. split; [exact Av|].
  split; [exact Hdiff|]. split; [exact Hdm|]. split; [exact Lc|].
  split; [apply drawn_intro; exact HdM|]. split; [apply drawn_intro; exact Hdd|]. split; [apply drawn_intro; exact Hdci|]. split; [apply drawn_intro; exact Hdmean|].
  split.
  { intros Hb. rewrite slice_from_nonneg in Hws by exact Hb. replace (1 / 20) with (5 / 100) by field. exact Hws. }
  split; [exists X; split; [eapply nth_error_In; exact Ek|reflexivity]|].
  split; [exact (scales_vmax_ok rf ri ws 0 v Hv)|]. split; [exact Fds|]. split; [exact Hfigs|]. split; [exact HpM|]. split; [exact Hpm|].
  split; [apply C52_relative_error; exact HeM|]. split; [apply C52_relative_error; exact Hem|].
  rewrite E. rewrite !from_number_0. cbn [app]. rewrite <- !app_assoc. cbn [app]. reflexivity.
Qed.
Print Assumptions C52_phasevel.

(** The map titled "95% credible interval range" shows the 99% one: nowhere
    narrower than the 95% range, and not equal to it. *)
Theorem C52_phasevel_interval : forall npix rows ci ci95 p, ranges_of npix rows (1 / 100) ci -> ranges_of npix rows (1 / 20) ci95 -> (p < npix)%nat ->
  nth p ci95 0 <= nth p ci 0.
Proof.
  intros npix rows ci ci95 p (_ & H1) (_ & H2) Hp. refine (C37_monotone _ (1 / 100) (1 / 20) p _ _ _ (H1 p Hp) (H2 p Hp)). lra.
Qed.
Print Assumptions C52_phasevel_interval.
Theorem C52_phasevel_interval_refuted : exists rows ci ci95, ranges_of 1 rows (1 / 100) ci /\ ranges_of 1 rows (1 / 20) ci95 /\ nth 0 ci 0 <> nth 0 ci95 0.
Proof.
  set (rows := [[RtoC 0]; [RtoC 1]]).
  assert (G : forall al, 0 < al < 1 -> exists c, ranges_of 1 rows al c /\ nth 0 c 0 = 1 - al).
  { intros al Ha. destruct (C37_defined (mkChain (map (map fst) rows) 1) al) as (D & _).
    destruct D as (r & Er & Lr); [cbn; discriminate|lra|]. exists r. assert (Q : ranges_of 1 rows al r) by (apply ranges_of_cir; [exact Er|discriminate|lra]).
    split; [exact Q|]. destruct Q as (_ & Q). specialize (Q 0%nat ltac:(lia)).
    rewrite (C37_value (mkChain (map (map fst) rows) 1) al 0 (nth 0 r 0) [0; 1] 0 (1 - al / 2) Q); cbn; try lia; try lra.
    - apply Permutation.Permutation_refl.
    - repeat constructor. lra. }
  destruct (G (1 / 100) ltac:(lra)) as (c1 & Q1 & E1). destruct (G (1 / 20) ltac:(lra)) as (c2 & Q2 & E2).
  exists rows, c1, c2. split; [exact Q1|]. split; [exact Q2|]. rewrite E1, E2. lra.
Qed.
Print Assumptions C52_phasevel_interval_refuted.

Lemma scales_vmax_exists : forall rf ri ms v0, (forall v, ri 256%nat v <> []) -> (forall m, In m ms -> mp_rows m <= 256)%nat -> exists v, scales_vmax rf ri v0 ms = Ok v.
Proof.
  intros rf ri ms v0 Hi Hm. revert v0. induction ms as [|m ms IH]; intros v0; cbn [scales_vmax]; [eauto|].
  assert (B := Hm m (or_introl eq_refl)). unfold oversample. cbn [cm_rows cm_buf].
  destruct (Z.ltb_spec (Z.of_nat 256 ^ 2 - Z.of_nat (mp_rows m) ^ 2) 0) as [H|H]; [nia|]. cbn [rbind cm_buf].
  match goal with |- context [np_max (ri 256%nat ?v)] => specialize (Hi v); destruct (ri 256%nat v) as [|x l]; [congruence|] end.
  cbn [np_max rbind]. apply IH. intros m' I. apply Hm. right. exact I.
Qed.
Lemma plot_map_unmasked : forall rf ri g m, (forall v, ri 256%nat v <> []) -> (cm_rows g <= 256)%nat -> ma_oversample m = true -> ma_mask m = None -> exists p, plot_map rf ri g m = Ok p.
Proof.
  intros rf ri g m Hi HL Ho Hm. destruct (C40_plot_map_errors rf ri g m) as (_ & _ & _ & A).
  set (o := mkCMap 256 (2 * 256 - 1) (ri 256%nat (rf (cm_rows g) (cm_buf g) ++ repeat (RtoC 0) (Z.to_nat (Z.of_nat 256 ^ 2 - Z.of_nat (cm_rows g) ^ 2)))%list)).
  assert (So : shown rf ri g m o).
  { unfold shown. rewrite Ho. unfold oversample. destruct (Z.ltb_spec (Z.of_nat 256 ^ 2 - Z.of_nat (cm_rows g) ^ 2) 0) as [H|H]; [nia|]. reflexivity. }
  destruct (A o So) as (d & after & E); [intros _; apply Hi|rewrite Hm; discriminate|]. eauto.
Qed.
Lemma draw_scales_exists : forall rf ri a v ms i o, (forall m, In m ms -> mp_rows m <= 256)%nat -> exists o', draw_scales rf ri a v i ms o = (o', Ok tt).
Proof.
  intros rf ri a v ms. induction ms as [|m ms IH]; intros i o Hm; cbn [draw_scales]; [eexists; reflexivity|].
  rewrite sbind_slift. destruct (plot_map_plain rf ri (mkCMap (mp_rows m) (mp_cols m) (map RtoC (mp_buf m))) (zero_up (Some v))) as (p & ->);
    [intros _; apply (Hm m (or_introl eq_refl))|reflexivity|reflexivity|]. cbv beta iota. rewrite sbind_emit. apply IH. intros m' I. apply Hm. right. exact I.
Qed.
Lemma save_figs_exists : forall a figs i o, exists o', save_figs a i figs o = (o', Ok tt).
Proof. intros a figs. induction figs as [|d figs IH]; intros i o; cbn [save_figs]; [eexists; reflexivity|]. rewrite sbind_emit. apply IH. Qed.
Lemma save_arrays_exists : forall a x1 x2 x3 x4 x5 o, exists o', save_arrays a x1 x2 x3 x4 x5 o = (o', Ok tt).
Proof. intros. unfold save_arrays. destruct (pa_npy a); [rewrite !sbind_emit|]; eexists; reflexivity. Qed.
Lemma rseq_exists : forall {A} (l : list (res A)), (forall r, In r l -> exists x, r = Ok x) -> exists xs, rseq l = Ok xs.
Proof.
  induction l as [|r l IH]; intros H; [eexists; reflexivity|]. destruct (H r (or_introl eq_refl)) as (x & ->). destruct IH as (xs & E); [intros; apply H; right; auto|].
  cbn [rseq rbind]. rewrite E. cbn [rbind]. eauto.
Qed.
Lemma In_map2 : forall {A B D} (g : A -> B -> D) l l' y, In y (map2 g l l') -> exists x x', In x l /\ In x' l' /\ y = g x x'.
Proof.
  induction l as [|a l IH]; intros [|b l'] y I; cbn in I; try contradiction. destruct I as [<-|I]; [exists a, b; split; [left|split; [left|]]; reflexivity|].
  destruct (IH l' y I) as (x & x' & H1 & H2 & H3). exists x, x'. split; [right; auto|]. split; [right; auto|auto].
Qed.
Lemma Forall2_In_r : forall {A B} (P : A -> B -> Prop) l l' y, Forall2 P l l' -> In y l' -> exists x, In x l /\ P x y.
Proof.
  induction 1 as [|a b l l' H F IH]; intros I; [contradiction|]. destruct I as [<-|I]; [exists a; split; [left; reflexivity|exact H]|].
  destruct (IH I) as (x & H1 & H2). exists x. split; [right; exact H1|exact H2].
Qed.

(** a readable file in the synthesis setting is processed to the end *)
Theorem C52_phasevel_completes : forall rf ri inv fwd til analysis truth pm obs a f b0 bls,
  rs_setting f = Some "synthesis"%string -> readable "synthesis" inv fwd (pa_burn a) f -> (rs_L f <= 256)%nat ->
  full_shape truth (rs_L f) -> length (cm_buf truth) = (rs_L f * (2 * rs_L f - 1))%nat -> (forall v, ri 256%nat v <> []) ->
  multires_bandlimits (rs_L f) til = Ok (b0 :: bls) -> (forall b, In b (b0 :: bls) -> b <= 256)%nat ->
  (forall s, In s (rs_chain f) -> total_size (b0 :: bls) <= length s)%nat ->
  (forall v, length (snd (analysis v)) = (b0 * (2 * b0 - 1))%nat /\ (total_size bls <= length (fst (analysis v)))%nat /\ fst (analysis v) <> []) ->
  m_cols pm = (rs_L f * (2 * rs_L f - 1))%nat -> length obs = m_rows pm ->
  exists outs, phasevel_plot rf ri inv fwd til analysis truth pm obs a f [] = (outs, Ok tt).
Proof.
  intros rf ri inv fwd til analysis truth pm obs a f b0 bls Hset RD HL Sh Lt Hi Hb Hb2 Hs Han Hpc Hpr.
  destruct (readable_pieces false _ _ _ _ _ RD) as (evo & X & m & wv & rows & Hevo & HX & Lm & HM & Hrows & NE & IX).
  unfold phasevel_plot. cbv zeta. rewrite sbind_slift. unfold key_setting. rewrite Hset. cbv beta iota.
  fwd_lift Hevo. rewrite sbind_emit. fwd_lift HX. fwd_lift HM. cbn [fst snd].
  Ltac fwd_any H p Hi := unfold draw at 1; rewrite sbind_assoc; rewrite sbind_slift;
    match goal with |- context [plot_map ?rf ?ri ?g ?m] => destruct (plot_map_unmasked rf ri g m Hi) as (p & H); [cbn [cm_rows]; auto|reflexivity|reflexivity|rewrite H; cbv beta iota] end;
    rewrite sbind_emit.
  fwd_any HdM dM Hi. rewrite sbind_slift, map_sub_ok by exact Sh. cbv beta iota.
  assert (NZ : forall v, length v = (rs_L f * (2 * rs_L f - 1))%nat -> map2 Cminus (cm_buf truth) v <> []).
  { destruct RD as (H1 & _). intros v Lv E. apply (f_equal (@length C)) in E. rewrite map2_length in E by congruence. cbn in E. rewrite Lt in E. nia. }
  destruct (cbar_end_exists (map2 Cminus (cm_buf truth) (real_of m))) as (c & Hc); [apply NZ; rewrite real_of_length; exact Lm|].
  fwd_lift Hc. fwd_any Hdd dd Hi. rewrite sbind_emit. fwd_lift Hrows.
  destruct (C37_defined (mkChain (map (map fst) rows) (rs_L f * (2 * rs_L f - 1))) (1 / 100)) as (D & _).
  destruct D as (ci & Hci & _); [cbn [ch_rows]; destruct rows; [congruence|discriminate]|lra|]. unfold credible_interval_range in Hci.
  rewrite sbind_slift. destruct (np_quantiles (mkChain (map (map fst) rows) (rs_L f * (2 * rs_L f - 1))) (1 / 100 / 2) (1 - 1 / 100 / 2)) as [q|]; [|discriminate].
  clear Hci ci. cbv beta iota. fwd_any Hdci dci Hi.
  assert (Hw : exists ws, wavelet_credible_interval_range (mkChain (map (map fst) (py_slice (rs_chain f) (Some (pa_burn a)) None)) (length X)) (rs_L f) til (5 / 100) = Ok ws /\
    forall w, In w ws -> (mp_rows w <= 256)%nat).
  { set (ch := mkChain _ _). destruct (C37_defined ch (5 / 100)) as (D & _). destruct D as (r & Er & _); [|lra|].
    - cbn [ch ch_rows]. destruct RD as (_ & _ & _ & HN & HB & _). rewrite slice_from by lia. intros E. apply (f_equal (@length _)) in E. rewrite map_length, skipn_length in E. cbn in E. lia.
    - destruct (C39_partition ch (rs_L f) til (5 / 100) (b0 :: bls) r Hb Er) as (maps & Em & F & _); [cbn [ch ch_cols]; apply Hs; exact IX|].
      exists maps. split; [exact Em|]. intros w Iw. destruct (Forall2_In_r _ _ _ _ F Iw) as (b & Ib & (-> & _)). apply Hb2. exact Ib. }
  destruct Hw as (ws & Hws & Hw). fwd_lift Hws. destruct (scales_vmax_exists rf ri ws (RtoC 0) Hi Hw) as (v & Hv). fwd_lift Hv.
  assert (SB : forall {A B} (mm : script A) (k : A -> script B) o o1 x, mm o = (o1, Ok x) -> sbind mm k o = k x o1) by (intros A B mm k o o1 x E; unfold sbind; rewrite E; reflexivity).
  match goal with |- context [sbind (draw_scales rf ri a v 0 ws) _ ?o] => destruct (draw_scales_exists rf ri a v ws 0 o Hw) as (o1 & E1); rewrite (SB _ _ _ _ _ _ _ E1) end.
  cbv beta. fwd_any Hdmean dmean Hi. set (mean := pix_mean (rs_L f * (2 * rs_L f - 1)) rows) in *.
  assert (Hf : exists figs, plot_wavelet_maps (fun _ v m => let* d := plot_map rf ri m (mkArgs None v true true None) in Ok (fst d))
      (rs_L f) til (fst (analysis mean)) (snd (analysis mean)) true (Some "Mean solution"%string) None = Ok figs).
  { destruct (Han mean) as (A1 & A2 & A3).
    destruct (C40_wavelet_maps (fun _ v m => let* d := plot_map rf ri m (mkArgs None v true true None) in Ok (fst d)) (rs_L f) til (fst (analysis mean)) (snd (analysis mean)) true
      (Some "Mean solution"%string) None b0 bls Hb A1 A2 (fun _ => A3)) as (maps & v' & -> & Fm & _).
    apply rseq_exists. intros r Ir.
    assert (G : forall g vv, (cm_rows g <= 256)%nat -> exists x, (let* d := plot_map rf ri g (mkArgs None vv true true None) in Ok (fst d)) = Ok x).
    { intros g vv Hg. destruct (plot_map_unmasked rf ri g (mkArgs None vv true true None) Hi Hg eq_refl eq_refl) as (p & ->). cbn [rbind]. eauto. }
    destruct Ir as [<-|Ir]; [apply G; cbn [cm_rows]; apply Hb2; left; reflexivity|].
    apply In_map2 in Ir. destruct Ir as (k & g & _ & Ig & ->). apply G. destruct (Forall2_In_r _ _ _ _ Fm Ig) as (b & Ib & (-> & _)). apply Hb2. right. exact Ib. }
  destruct Hf as (figs & Hf). fwd_lift Hf.
  match goal with |- context [sbind (save_figs a 0 figs) _ ?o] => destruct (save_figs_exists a figs 0 o) as (o2 & E2); rewrite (SB _ _ _ _ _ _ _ E2) end.
  cbv beta. rewrite sbind_slift, map_sub_ok by exact Sh. cbv beta iota. rewrite !sbind_emit.
  assert (Hp : forall v, length v = (rs_L f * (2 * rs_L f - 1))%nat -> Path_forward pm v = Ok (matvec pm v)).
  { intros u Lu. unfold Path_forward. rewrite Lu, Hpc, Nat.eqb_refl. apply np_dot_ok. congruence. }
  rewrite sbind_slift, Hp by (rewrite real_of_length; exact Lm). cbv beta iota.
  rewrite sbind_slift. unfold rel_squared_error at 1. rewrite np_sub_same by (rewrite matvec_length; congruence). cbn [rbind]. rewrite sbind_emit.
  rewrite sbind_slift, Hp by apply pix_mean_length. cbv beta iota.
  rewrite sbind_slift. unfold rel_squared_error at 1. rewrite np_sub_same by (rewrite matvec_length; congruence). cbn [rbind]. rewrite sbind_emit.
  apply save_arrays_exists.
Qed.
Print Assumptions C52_phasevel_completes.

(** In the analysis setting the samples are images, which are shorter than the
    wavelet coefficients: the ranges scale by scale cannot be formed and the
    script stops before printing anything. *)
Theorem C52_phasevel_analysis : forall rf ri inv fwd til analysis truth pm obs a f bls s outs r,
  rs_setting f = Some s -> s <> "synthesis"%string -> multires_bandlimits (rs_L f) til = Ok bls -> (rs_L f * (2 * rs_L f - 1) < total_size bls)%nat ->
  phasevel_plot rf ri inv fwd til analysis truth pm obs a f [] = (outs, r) ->
  (exists e, r = Raise e) /\ (forall label v, ~ In (OPrint label v) outs) /\ forall path x, ~ In (ONpy path x) outs.
Proof.
  intros rf ri inv fwd til analysis truth pm obs a f bls s outs r Hset Hs Hb Hl E.
  unfold phasevel_plot in E. cbv zeta in E. rewrite sbind_slift in E. unfold key_setting in E. rewrite Hset in E. cbv beta iota in E.
  Ltac noprint := split; intros ? ? HI; cbn [app In] in HI; repeat (destruct HI as [HI|HI]; [discriminate HI|]); exact HI.
  Ltac live E x H := rewrite sbind_slift in E; match type of E with match ?q with _ => _ end = _ =>
    destruct q as [x|] eqn:H; [cbv beta in E|injection E as <- <-; split; [eauto|noprint]] end.
  live E evo Hevo. estep E. live E X HX. live E M HM. unfold draw in E at 1. rewrite sbind_assoc in E. live E dM HdM. estep E.
  live E diff Hd. live E c Hc. unfold draw in E at 1. rewrite sbind_assoc in E. live E dd Hdd. estep E. estep E. live E rows Hrows. live E q Hq.
  unfold draw in E at 1. rewrite sbind_assoc in E. live E dci Hdci. estep E.
  assert (LX : length X = (rs_L f * (2 * rs_L f - 1))%nat).
  { unfold MAP_of, as_map in HM. destruct (String.eqb_spec s "synthesis"); [contradiction|]. destruct (fwd X); cbn [rbind fst] in HM; [|discriminate].
    destruct (Nat.eqb_spec (length X) (rs_L f * (2 * rs_L f - 1))) as [LX|LX]; [exact LX|discriminate]. }
  rewrite sbind_slift in E. match type of E with match wavelet_credible_interval_range ?ch ?L ?t ?al with _ => _ end = _ => set (c0 := ch) in E; destruct (C39_errors c0 L t al) as (_ & E2 & E3) end.
  destruct (credible_interval_range c0 (5 / 100)) as [r0|e0] eqn:Er.
  - rewrite (E3 bls r0 Hb eq_refl) in E by (cbn [c0 ch_cols]; rewrite LX; exact Hl). injection E as <- <-. split; [eauto|noprint].
  - rewrite (E2 bls e0 Hb eq_refl) in E. injection E as <- <-. split; [eauto|noprint].
Qed.
Print Assumptions C52_phasevel_analysis.
(** L = 2 with three scales: 6 pixels, 8 coefficients *)
Theorem C52_phasevel_analysis_refuted : exists til truth a f, readable "analysis" Ok Ok (pa_burn a) f /\ rs_setting f = Some "analysis"%string /\
  (rs_L f <= 256)%nat /\ full_shape truth (rs_L f) /\ length (cm_buf truth) = (rs_L f * (2 * rs_L f - 1))%nat /\ multires_bandlimits (rs_L f) til = Ok [1; 1; 2]%nat /\
  forall rf ri analysis pm obs outs r, phasevel_plot rf ri Ok Ok til analysis truth pm obs a f [] = (outs, r) -> exists e, r = Raise e.
Proof.
  set (im := [RtoC 1; RtoC 2; RtoC 3; RtoC 4; RtoC 5; RtoC 6]).
  set (a := mkPlotArgs "." "" 0 false false). set (f := mkResults 2 (Some "analysis"%string) 2 [-2; -1] [im; im]).
  exists (til_witness 1), (mkCMap 2 3 im), a, f.
  split.
  { unfold readable. cbn [rs_L rs_logpi rs_chain rs_nsamples f pa_burn a length]. split; [lia|]. split; [discriminate|]. split; [lia|]. split; [reflexivity|]. split; [lia|].
    intros s Is. assert (Ls : length s = 6%nat) by (destruct Is as [<-|[<-|[]]]; reflexivity). split; [|eauto].
    exists s. split; [right; split; [discriminate|reflexivity]|exact Ls]. }
  split; [reflexivity|]. split; [cbn; lia|]. split; [split; reflexivity|]. split; [reflexivity|]. assert (B := til_witness_bandlimits 1 ltac:(lra)). split; [exact B|].
  intros rf ri analysis pm obs outs r E. eapply (C52_phasevel_analysis rf ri Ok Ok (til_witness 1) analysis (mkCMap 2 3 im) pm obs a f [1; 1; 2]%nat "analysis" outs r); [reflexivity|discriminate|exact B|cbn; lia|exact E].
Qed.
Print Assumptions C52_phasevel_analysis_refuted.

(** burn must leave a sample; the band limit must not exceed 256; there must be
    a setting *)
Theorem C52_limits : forall rf ri typed inv fwd til analysis truth noise pm obs a f outs,
  (topo_plot rf ri typed inv fwd truth noise a f [] = (outs, Ok tt) -> (pa_burn a < rs_nsamples f)%Z /\ (rs_L f <= 256)%nat) /\
  (phasevel_plot rf ri inv fwd til analysis truth pm obs a f [] = (outs, Ok tt) -> (pa_burn a < rs_nsamples f)%Z /\ (rs_L f <= 256)%nat) /\
  (rs_setting f = None -> phasevel_plot rf ri inv fwd til analysis truth pm obs a f [] = ([], Raise KeyError)).
Proof.
  assert (B : forall cplx setting inv L N burn ch rows, chain_pix cplx setting inv L N burn ch = Ok rows -> rows <> [] -> (burn < N)%Z).
  { intros cplx setting inv L N burn ch rows E NE. destruct (C52_chain_pix cplx setting inv L N burn ch) as (P & _). destruct (P rows E) as (_ & Lr & _). destruct rows; [congruence|]. cbn in Lr. lia. }
  assert (D : forall rf ri L v m p, plot_map rf ri (mkCMap L (2 * L - 1) v) m = Ok p -> ma_oversample m = true -> (L <= 256)%nat).
  { intros rf ri L v m p E Ho. destruct (C40_plot_map_errors rf ri (mkCMap L (2 * L - 1) v) m) as (Q & _). destruct (Nat.le_gt_cases L 256) as [H|H]; [exact H|].
    rewrite (Q Ho H) in E. discriminate. }
  intros rf ri typed inv fwd til analysis truth noise pm obs a f outs. split; [|split].
  - intros E. unfold topo_plot in E. cbv zeta in E.
    lstep E evo Hevo. estep E. lstep E dt Hdt. estep E. lstep E X HX. lstep E M HM. dstep E dM HdM.
    lstep E diff Hdiff. lstep E c Hc. dstep E dd Hdd. estep E. lstep E rows Hrows. lstep E ci Hci. split; [|eapply D; [exact HdM|reflexivity]].
    eapply B; [exact Hrows|]. intros ->. unfold credible_interval_range, np_quantiles in Hci. cbn [map ch_rows] in Hci. destruct (_ && _)%bool; discriminate.
  - intros E. unfold phasevel_plot in E. cbv zeta in E.
    lstep E setting Hset. lstep E evo Hevo. estep E. lstep E X HX. lstep E M HM. dstep E dM HdM.
    lstep E diff Hdiff. lstep E c Hc. dstep E dd Hdd. estep E. lstep E rows Hrows. lstep E q Hq. split; [|eapply D; [exact HdM|reflexivity]].
    eapply B; [exact Hrows|]. intros ->. unfold np_quantiles in Hq. cbn [map ch_rows] in Hq. destruct (_ && _)%bool; discriminate.
  - intros H. unfold phasevel_plot. cbv zeta. rewrite sbind_slift. unfold key_setting. rewrite H. reflexivity.
Qed.
Print Assumptions C52_limits.

(** L = 2: two samples of 8 wavelet coefficients whose images are the last six,
    one ray through the first pixel *)
Example C52_case_phasevel : let inv := fun v : vec => Ok (skipn 2 v) in
  let X := map RtoC [9; 9; 3; 0; 0; 0; 0; 0] in let Y := map RtoC [9; 9; 5; 0; 0; 0; 0; 0] in
  let a := mkPlotArgs "figs" "" 0 true false in let f := mkResults 2 (Some "synthesis"%string) 2 [-1; -2] [X; Y] in
  let pm := mkMat 1 6 (fun _ j => RtoC (if Nat.eqb j 0 then 1 else 0)) in
  exists outs, phasevel_plot (fun _ v => v) (fun _ _ => [RtoC 1]) inv Ok (til_witness 1) (fun _ => (repeat (RtoC 1) 7, [RtoC 1]))
                 (mkCMap 2 3 (map RtoC [3; 1; 1; 1; 1; 1])) pm [RtoC 3] a f [] = (outs, Ok tt) /\
    In (OPrint "MAP R2E" (Some 0)) outs /\ In (OPrint "Mean R2E" (Some (1 / 9))) outs /\
    In (ONpy "figs/MAP.npy" (map (fun r => Some (RtoC r)) [3; 0; 0; 0; 0; 0])) outs.
Proof.
  intros inv X Y a f pm.
  assert (B := til_witness_bandlimits 1 ltac:(lra)).
  assert (RD : readable "synthesis" inv Ok (pa_burn a) f).
  { unfold readable. cbn [rs_L rs_logpi rs_chain rs_nsamples f pa_burn a length]. split; [lia|]. split; [discriminate|]. split; [lia|]. split; [reflexivity|]. split; [lia|].
    intros s Is. split; [|congruence]. exists (skipn 2 s). split; [left; split; reflexivity|]. destruct Is as [<-|[<-|[]]]; reflexivity. }
  destruct (C52_phasevel_completes (fun _ v => v) (fun _ _ => [RtoC 1]) inv Ok (til_witness 1) (fun _ => (repeat (RtoC 1) 7, [RtoC 1]))
                 (mkCMap 2 3 (map RtoC [3; 1; 1; 1; 1; 1])) pm [RtoC 3] a f 1 [1; 2]%nat) as (outs & E);
    [reflexivity|exact RD|cbn; lia|split; reflexivity|reflexivity|discriminate|exact B| | | |reflexivity|reflexivity|].
  { cbn. intros b Hb. lia. }
  { intros s [<-|[<-|[]]]; cbn; lia. }
  { intros v. cbn. split; [reflexivity|]. split; [lia|discriminate]. }
  exists outs. split; [exact E|]. apply C52_phasevel in E; [|intros z Iz; apply in_map_iff in Iz; destruct Iz as (? & <- & _); reflexivity].
  destruct E as (setting & evo & MAP & wv & rows & ci & mean & diff & dm & c & dM & dd & dci & dmean & k & ws & v & scales & figs & pM & pme & eM & em &
    Hs & _ & Es & _ & _ & _ & Av & _ & _ & _ & _ & _ & _ & _ & _ & _ & _ & _ & _ & HpM & Hpm & ReM & Rem & ->).
  injection Hs as <-. destruct Es as ((k0 & X0 & m & Fk & Ek & Im & Lm & EM & _) & _ & Lr & Rows). specialize (Rows ltac:(cbn; lia) eq_refl).
  assert (Ek1 : k0 = 0%nat).
  { apply (first_largest_unique [-1; -2]); [exact Fk|]. split; [cbn; lia|]. split; [|lia]. intros [|[|i]] Hi; cbn in *; lra || lia. }
  subst k0. cbn in Ek. injection Ek as <-. destruct Im as [(_ & Im)|(N & _)]; [|congruence]. injection Im as <-. cbn in EM.
  change (map RtoC [3; 0; 0; 0; 0; 0] = MAP) in EM || idtac.
  assert (EM' : MAP = map RtoC [3; 0; 0; 0; 0; 0]) by (rewrite EM; reflexivity). clear EM. subst MAP.
  change (skipn (Z.to_nat (pa_burn a)) (rs_chain f)) with [X; Y] in Rows.
  assert (Er : rows = [skipn 2 X; skipn 2 Y]).
  { inversion Rows as [|? r1 ? rest (v1 & I1 & A1) R2]; subst. inversion R2 as [|? r2 ? rest2 (v2 & I2 & A2) R3]; subst. inversion R3; subst.
    destruct I1 as [(_ & I1)|(N & _)]; [|congruence]. destruct I2 as [(_ & I2)|(N & _)]; [|congruence]. injection I1 as <-. injection I2 as <-.
    assert (G : forall r x, length x = 6%nat -> (forall z, In z x -> snd z = 0) -> assigned (rs_L f * (2 * rs_L f - 1)) real_part x r -> r = x).
    { intros r x Lx Rx [((_ & A) & Lr')|(z & -> & _)]; [|discriminate]. cbn in Lr'. apply (nth_ext _ _ (RtoC 0) (RtoC 0)); [etransitivity; [exact Lr'|symmetry; exact Lx]|]. intros i Hi.
      rewrite A by (rewrite Lr' in Hi; exact Hi). assert (S0 := Rx (nth i x (RtoC 0)) ltac:(apply nth_In; lia)). symmetry. exact (real_eq _ S0). }
    rewrite (G r1 (skipn 2 X) eq_refl ltac:(intros z Iz; cbn in Iz; repeat (destruct Iz as [<-|Iz]; [reflexivity|]); contradiction) A1).
    rewrite (G r2 (skipn 2 Y) eq_refl ltac:(intros z Iz; cbn in Iz; repeat (destruct Iz as [<-|Iz]; [reflexivity|]); contradiction) A2). reflexivity. }
  subst rows. destruct Av as (La & Av). change (rs_L f * (2 * rs_L f - 1))%nat with 6%nat in La, Av.
  assert (A0 := Av 0%nat ltac:(lia)). cbn in A0. destruct mean as [|m0 mean]; [discriminate|]. cbn [nth] in A0. destruct A0 as (A1 & A2).
  assert (Em0 : m0 = RtoC 4) by (destruct m0 as [x y]; cbn [fst snd] in A1, A2; unfold RtoC; f_equal; [rewrite A1|rewrite A2]; lra). subst m0.
  assert (EpM : pM = [RtoC 3]).
  { unfold Path_forward in HpM. cbn in HpM. apply Ok_inj in HpM. rewrite <- HpM. f_equal. unfold Cplus, Cmult, RtoC. cbn. f_equal; ring. }
  assert (Epm : pme = [RtoC 4]).
  { unfold Path_forward in Hpm. rewrite La in Hpm. cbn [pm m_cols Nat.eqb] in Hpm. do 6 (destruct mean as [|? mean]; try discriminate). cbn in Hpm.
    apply Ok_inj in Hpm. rewrite <- Hpm. f_equal. unfold Cplus, Cmult, RtoC. cbn. f_equal; ring. }
  subst pM pme. specialize (ReM eq_refl). specialize (Rem eq_refl). unfold sum_squares in *. cbn [map map2 rsum fold_right] in *.
  rewrite <- !RtoC_minus, !Cmod_R in *. replace (3 - 3) with 0 in ReM by lra. replace (4 - 3) with 1 in Rem by lra. rewrite Rabs_R0 in ReM. rewrite Rabs_R1 in Rem.
  rewrite (Rabs_right 3) in * by lra. rewrite ReM, Rem by lra.
  split; [|split].
  - do 4 (apply in_or_app; right). apply in_or_app. left. right. right. left. unfold prints. do 2 f_equal. lra.
  - do 4 (apply in_or_app; right). apply in_or_app. left. right. right. right. left. unfold prints. do 2 f_equal. lra.
  - do 5 (apply in_or_app; right). unfold saved_arrays. cbn [pa_npy a]. right. left. reflexivity.
Qed.
