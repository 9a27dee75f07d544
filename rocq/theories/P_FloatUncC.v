(** C68, continued: uncertainties of runs of the samplers. *)
From Coq Require Import List ZArith Lia Bool Reals Lra Permutation Sorted String.
From Coquelicot Require Import Coquelicot.
From Verif Require Import PyBase PyBaseFacts CVec RSort Thresh Utils UtilsProof Transforms Uncertainty UncProof P_Unc
  Forward Prior Mcmc Sampler SamplerSpec SamplerFacts McmcSpec ParamSpec RepSpec Ieee IeeeProof FloatOps FloatSk StepProof FloatUnc RoundProof P_FloatOps FloatUncProof P_FloatUnc P_FloatUncB
  LimSpec LimTie LimSet P_Ieee FloatProof P_Limit P_Samplers P_Mcmc.
Import ListNotations.
Notation length := List.length.
Open Scope R_scope.

Lemma RtoC_map_inj : forall a b, map RtoC a = map RtoC b -> a = b.
Proof. induction a as [|x a IH]; intros [|y b] H; try discriminate; [reflexivity|]. injection H as E1 E2. rewrite (IH _ E2). f_equal. exact E1. Qed.

(** ** rows near rows of real numbers *)
Lemma near_rows : forall n d rowsF rows, List.Forall2 (near_vec n d) rowsF (map (map RtoC) rows) ->
  exists rows', rowsF = map (map Fin) rows' /\
    List.Forall2 (fun r' r : list R => length r' = n /\ length r = n /\ forall k, (k < n)%nat -> Rabs (nth k r' 0 - nth k r 0) <= d) rows' rows.
Proof.
  intros n d rowsF rows. revert rowsF. induction rows as [|r rows IH]; intros rowsF H; inversion H as [|x ? l ? H1 H2]; subst.
  - exists []. split; [reflexivity|constructor].
  - destruct (IH _ H2) as (rows' & -> & F). destruct H1 as (a & b & -> & Eb & La & Lb & D). apply RtoC_map_inj in Eb. subst b.
    exists (a :: rows'). split; [reflexivity|]. constructor; auto.
Qed.
Lemma near_nums : forall d lF l, List.Forall2 (near_num d) lF (map RtoC l) ->
  exists l', lF = map Fin l' /\ List.Forall2 (fun u v => Rabs (u - v) <= d) l' l.
Proof.
  intros d lF l. revert lF. induction l as [|x l IH]; intros lF H; inversion H as [|y ? l1 ? H1 H2]; subst.
  - exists []. split; [reflexivity|constructor].
  - destruct (IH _ H2) as (l' & -> & F). destruct H1 as (r & s & -> & Es & D). injection Es as <-.
    exists (r :: l'). split; [reflexivity|]. constructor; auto.
Qed.
Lemma rows_bound : forall rows : list (list R), exists A, 0 <= A /\ List.Forall (within A) rows.
Proof.
  induction rows as [|r rows (A & A0 & H)]; [exists 0; split; [lra|constructor]|]. destruct (some_bound r) as (B & HB).
  exists (Rmax A B). split; [apply Rle_trans with (1 := A0), Rmax_l|]. constructor.
  - eapply List.Forall_impl; [|exact HB]. intros z Hz. cbn in Hz. apply Rle_trans with (1 := Hz), Rmax_r.
  - eapply List.Forall_impl; [|exact H]. intros l Hl. eapply List.Forall_impl; [|exact Hl]. intros z Hz. cbn in Hz. apply Rle_trans with (1 := Hz), Rmax_l.
Qed.

(** *** as the samples and the arithmetic become exact the ranges tend to the exact
    ones *)
Theorem C68_ranges_limit : forall n rows alpha e, rows <> [] -> 0 <= alpha <= 2 -> 0 < e ->
  exists d, 0 < d /\ forall rnd F rowsF alpha', rounding rnd F -> accurate rnd (/ d) d ->
    List.Forall2 (near_vec n d) rowsF (map (map RtoC) rows) -> 0 <= alpha' <= 2 -> Rabs (alpha' - alpha) <= d ->
    forall j, (j < n)%nat -> exists x y, f_range_of rnd rowsF n (Fin alpha') j (Fin x) /\ range_of (mkChain rows n) alpha j y /\ Rabs (x - y) <= e.
Proof.
  intros n rows alpha e Hr Ha He. destruct (rows_bound rows) as (A & A0 & HA). set (N := INR (length rows)).
  assert (N0 : 0 <= N) by apply pos_INR. assert (AN : 0 <= (A + 1) * N) by nra.
  set (K := 9 + 12 * (A + 1) + 12 * ((A + 1) * N)). set (M := 9 + 14 * (A + 1) + 12 * ((A + 1) * N) + 2 * N).
  assert (K1 : 9 <= K) by (unfold K; lra). assert (M1 : 9 <= M) by (unfold M; lra).
  set (d := Rmin 1 (Rmin (e / K) (/ M))).
  assert (D1 : d <= 1) by apply Rmin_l.
  assert (D2 : d <= e / K) by (apply Rle_trans with (2 := Rmin_l (e / K) (/ M)); apply Rmin_r).
  assert (D3 : d <= / M) by (apply Rle_trans with (2 := Rmin_r (e / K) (/ M)); apply Rmin_r).
  assert (D0 : 0 < d).
  { apply Rmin_glb_lt; [lra|]. apply Rmin_glb_lt; [apply Rdiv_lt_0_compat; lra|apply Rinv_0_lt_compat; lra]. }
  assert (DM : M <= / d). { rewrite <- (Rinv_involutive M) by lra. apply Rinv_le_contravar; assumption. }
  assert (DK : d * K <= e). { apply Rmult_le_compat_r with (r := K) in D2; [|lra]. unfold Rdiv in D2. rewrite Rmult_assoc, Rinv_l, Rmult_1_r in D2 by lra. exact D2. }
  clearbody d. exists d. split; [exact D0|]. intros rnd F rowsF alpha' H AC NR Ha' Hal j Hj.
  destruct (near_rows _ _ _ _ NR) as (rows' & -> & F2).
  assert (L' : length rows' = length rows) by (clear - F2; induction F2; cbn; auto).
  assert (FL : List.Forall (fun r => length r = n) rows') by (clear - F2; induction F2; constructor; tauto).
  assert (FL0 : List.Forall (fun r => length r = n) rows) by (clear - F2; induction F2; constructor; tauto).
  assert (FW : List.Forall (within (A + 1)) rows').
  { clear - F2 HA D1. induction F2 as [|r' r rows' rows (L1 & L2 & D) F2 IH]; constructor; inversion HA; subst; auto.
    apply List.Forall_forall. intros x Hx. apply In_nth with (d := 0) in Hx. destruct Hx as (k & Hk & <-). specialize (D k Hk).
    assert (B : Rabs (nth k r 0) <= A) by (apply within_nth; [assumption|lia]). apply abs_le in B. apply abs_le in D. apply abs_le. lra. }
  assert (Hr' : rows' <> []) by (intros ->; destruct rows; [congruence|discriminate]).
  assert (R' := range_of_intro (mkChain rows' n) alpha j Hr' Ha Hj). assert (Rg := range_of_intro (mkChain rows n) alpha j Hr Ha Hj).
  cbn [ch_rows] in *. set (y' := range1 (column j rows') alpha) in *. set (y := range1 (column j rows) alpha) in *.
  destruct (C68_range_close rnd F (/ d) d (A + 1) rows' n alpha alpha' j y' H AC D1 ltac:(lra)) as (x & X1 & X2); auto.
  { cbv zeta. rewrite L'. fold N. exact DM. }
  exists x, y. split; [exact X1|]. split; [exact Rg|]. rewrite L' in X2. fold N in X2.
  assert (C2 : List.Forall2 (fun u v => Rabs (u - v) <= d) (column j rows') (column j rows)).
  { clear - F2 Hj. induction F2 as [|r' r rows' rows (L1 & L2 & D) F2 IH]; constructor; auto. }
  assert (Lc : length (column j rows') = length (column j rows)) by (rewrite !column_length; exact L').
  assert (Np : (0 < length (column j rows'))%nat) by (rewrite column_length; destruct rows'; [congruence|cbn; lia]).
  assert (I1 := interp_near _ _ d ((1 - alpha / 2) * INR (length (column j rows') - 1)) C2 Np (virtual_range (length (column j rows')) (1 - alpha / 2) ltac:(lra))).
  assert (I2 := interp_near _ _ d (alpha / 2 * INR (length (column j rows') - 1)) C2 Np (virtual_range (length (column j rows')) (alpha / 2) ltac:(lra))).
  unfold y', y, range1 in *. rewrite <- Lc. apply abs_le in I1. apply abs_le in I2. apply abs_le in X2.
  assert (EK : d * (7 + 12 * (A + 1) + 12 * ((A + 1) * N)) = d * K - 2 * d) by (unfold K; ring). rewrite EK in X2.
  apply abs_le. lra.
Qed.
Print Assumptions C68_ranges_limit.

Theorem C68_region_limit : forall logpis alpha t e, credible_region_threshold logpis alpha = Ok t -> 0 < e ->
  exists d, 0 < d /\ forall rnd F lF alpha', rounding rnd F -> accurate rnd (/ d) d ->
    List.Forall2 (near_num d) lF (map RtoC logpis) -> 0 <= alpha' <= 1 -> Rabs (alpha' - alpha) <= d ->
    exists x, f_region rnd lF (Fin alpha') = Ok (Fin x) /\ Rabs (x - t) <= e.
Proof.
  intros l alpha t e E He. destruct (some_bound l) as (A & HA). destruct (threshold_inv _ _ _ E) as (Nl & Ha & Et).
  assert (A0 : 0 <= A) by (destruct l as [|z l]; [congruence|]; inversion HA; subst; pose proof (Rabs_pos z); lra).
  set (N := INR (length l)). assert (N0 : 0 <= N) by apply pos_INR. assert (AN : 0 <= (A + 1) * N) by nra.
  set (K := 4 + 6 * (A + 1) + 4 * ((A + 1) * N)). set (M := 5 + 3 * (A + 1) + 2 * N).
  assert (K1 : 4 <= K) by (unfold K; lra). assert (M1 : 5 <= M) by (unfold M; lra).
  set (d := Rmin 1 (Rmin (e / K) (/ M))).
  assert (D1 : d <= 1) by apply Rmin_l.
  assert (D2 : d <= e / K) by (apply Rle_trans with (2 := Rmin_l (e / K) (/ M)); apply Rmin_r).
  assert (D3 : d <= / M) by (apply Rle_trans with (2 := Rmin_r (e / K) (/ M)); apply Rmin_r).
  assert (D0 : 0 < d).
  { apply Rmin_glb_lt; [lra|]. apply Rmin_glb_lt; [apply Rdiv_lt_0_compat; lra|apply Rinv_0_lt_compat; lra]. }
  assert (DM : M <= / d). { rewrite <- (Rinv_involutive M) by lra. apply Rinv_le_contravar; assumption. }
  assert (DK : d * K <= e). { apply Rmult_le_compat_r with (r := K) in D2; [|lra]. unfold Rdiv in D2. rewrite Rmult_assoc, Rinv_l, Rmult_1_r in D2 by lra. exact D2. }
  clearbody d. exists d. split; [exact D0|]. intros rnd F lF alpha' H AC NR Ha' Hal.
  destruct (near_nums _ _ _ NR) as (l' & -> & F2).
  assert (L' : length l' = length l) by (clear - F2; induction F2; cbn; auto).
  assert (FW : within (A + 1) l').
  { clear - F2 HA D1. induction F2 as [|u v l' l Hd F2 IH]; constructor; inversion HA; subst; [|auto; apply IH; auto].
    match goal with B : Rabs v <= A |- _ => apply abs_le in B end. apply abs_le in Hd. apply abs_le. lra. }
  assert (Nl' : l' <> []) by (intros ->; destruct l; [congruence|discriminate]).
  set (t' := interp (rsort l') ((1 - alpha) * INR (length l' - 1))).
  assert (E' : credible_region_threshold l' alpha = Ok t') by (unfold credible_region_threshold; rewrite np_quantile_Ok by (auto; lra); reflexivity).
  destruct (C68_region_close rnd F (/ d) d (A + 1) l' alpha alpha' t' H AC D1) as (x & X1 & X2); auto.
  { rewrite L'. exact DM. }
  exists x. split; [exact X1|]. rewrite L' in X2. fold N in X2.
  assert (I1 := interp_near _ _ d ((1 - alpha) * INR (length l' - 1)) F2 ltac:(destruct l'; [congruence|cbn; lia]) (virtual_range (length l') (1 - alpha) ltac:(lra))).
  fold t' in I1. rewrite L', <- Et in I1. apply abs_le in I1. apply abs_le in X2.
  assert (EK : d * (3 + 6 * (A + 1) + 4 * ((A + 1) * N)) = d * K - d) by (unfold K; ring). rewrite EK in X2. apply abs_le. lra.
Qed.
Print Assumptions C68_region_limit.

(** *** MYULA from a start with a NaN pixel: its range is NaN, the threshold of the
    credible region is NaN and no point belongs to the region *)
Theorem C68_nan_start : forall rnd F G (randn laplace : nat -> G -> list R * G) rand npix rows data ws T lmda mu prm fuel x0 w w' n i,
  rounding rnd F -> sized (w_inst w) n -> p_nsamples prm = Z.of_nat n -> (1 <= n)%nat ->
  myula_run (fl_ops rnd randn laplace rand (f_paths rnd npix rows data ws T) lmda mu) prm fuel (Some x0) w = (w', Ret tt) ->
  nth_error x0 i = Some NaN ->
  (forall chain cols alpha x, i_chain (w_inst w') = Some chain -> 0 <= alpha <= 2 -> f_range_of rnd chain cols (Fin alpha) i x -> x = NaN) /\
  (forall vals alpha t x, i_logPi (w_inst w') = Some vals -> f_region rnd vals alpha = Ok t -> List.Forall (eq NaN) vals /\ t = NaN /\ f_in_region x t = false).
Proof.
  intros rnd F G randn laplace rand npix rows data ws T lmda mu prm fuel x0 w w' n i H S N N1 E Hn. split.
  - intros chain cols alpha x Ec Ha Rg.
    destruct (C58_myula_records rnd G randn laplace rand _ lmda mu prm fuel x0 w w' n i chain S N E Hn Ec) as (L & FR).
    destruct chain as [|row chain]; [cbn in L; lia|]. inversion FR; subst.
    apply (C68_nan_range rnd F (row :: chain) cols alpha i x row H Ha); auto. now left.
  - intros vals alpha t x Ev Et.
    destruct (C01_myula_schedule _ _ _ _ _ _ _ prm fuel (Some x0) w w' n S N E) as (s & tr & l & A1 & A2 & A3 & _ & A5 & A6 & A7 & A8).
    destruct A7 as (R1 & _). destruct S as (S1 & _). rewrite Ev in R1. destruct (i_logPi (w_inst w)) as [a0|]; [|destruct R1]. cbn in S1.
    assert (L : nth_error (fst (fst s)) i = Some NaN).
    { destruct s as [[xx dd] g]. destruct A1 as (A1 & _). cbn in A1. destruct (Nat.eqb (List.length x0) npix); [|discriminate]. injection A1 as <- _. exact Hn. }
    pose proof (C58_myula_nan_stays rnd G randn laplace rand _ lmda mu _ _ _ i A2 L) as FN. rewrite List.Forall_forall in FN.
    assert (AN : List.Forall (eq NaN) vals).
    { apply List.Forall_forall. intros v Hv. destruct (rec_in_full _ _ _ _ _ R1 ltac:(rewrite map_length; congruence) Hv) as (y & Hy & Ey).
      cbn in Ey. injection Ey as <-. apply in_map_iff in Hy. destruct Hy as (e & <- & He).
      rewrite List.Forall_forall in A6. assert (OK := A6 _ He). apply In_nth_error in He. destruct He as (j & Ej).
      destruct (A8 _ _ Ej) as (st & Es & Eq). assert (Fs := FN _ (nth_error_In _ _ Es)). cbv beta in Fs.
      destruct st as [[xs ds] gs], e as [[xe de] te]. destruct Eq as (-> & ->). cbn [fst snd] in *.
      unfold entry_ok in OK. unfold e_logPi. cbn [fst snd e_X e_D] in *. cbn [fl_ops o_logpi] in OK. unfold f_logpi in OK.
      destruct (fzip _ _ _); cbn [rbind] in OK; [|discriminate]. destruct (f_matvec _ _ _) as [wd|]; cbn [rbind] in OK; [|discriminate].
      destruct (Nat.eqb _ _); cbn [rbind] in OK; [|discriminate]. cbn [f_paths fp_prior] in OK.
      assert (P : f_l1 rnd xs = NaN) by (apply (proj1 (C63_prior_nan rnd F xs H)); eapply nth_error_In; exact Fs).
      rewrite P in OK. cbn [rbind] in OK. injection OK as <-. cbn [fst]. destruct mu; reflexivity. }
    split; [exact AN|].
    assert (NV : vals <> []).
    { destruct R1 as (rr & F2 & _ & ->). intros Q. apply app_eq_nil in Q. destruct Q as (-> & _). inversion F2 as [Q|]. destruct l; [cbn in A5; lia|discriminate Q]. }
    apply (C68_region_nan rnd vals alpha t x); [|exact Et]. destruct vals as [|v vals]; [congruence|]. inversion AN; subst. now left.
Qed.
Print Assumptions C68_nan_start.

Lemma f2_weaken : forall {A B} (P Q : A -> B -> Prop), (forall a b, P a b -> Q a b) -> forall a b, List.Forall2 P a b -> List.Forall2 Q a b.
Proof. intros A B P Q H a b F. induction F; constructor; auto. Qed.
Lemma accurate_less : forall rnd d d', 0 < d' -> d' <= d -> accurate rnd (/ d') d' -> accurate rnd (/ d) d.
Proof.
  intros rnd d d' H0 H1 (_ & H2). split; [lra|]. intros x Hx. destruct (H2 x) as (y & E & D).
  - apply Rle_trans with (1 := Hx). apply Rinv_le_contravar; lra.
  - exists y. split; [exact E|lra].
Qed.

(** *** the ranges and thresholds of whole runs tend to those of the exact run *)
Section Runs.
Context {G : Type}.
Variables (R0 : rng G) (n : nat) (W : list (list (nat * R))) (ys sig : list R) (t : R) (q : numparams).
Hypothesis PS : path_setup R0 n W ys sig t q.
Notation m := (length W).
Notation fops rnd := (fl_ops rnd (g_randn R0) (g_laplace R0) (g_rand R0) (float_paths rnd n W ys sig t) (Fin (n_lmda q)) (Fin (n_mu q))).
Notation sops rnd := (fl_sk_ops rnd (n_s q) (g_randn R0) (g_laplace R0) (g_rand R0) (float_paths rnd n W ys sig t) (Fin (n_lmda q)) (Fin (n_mu q))).
Notation real := (mcmc_ops R0 (exact_paths_fwd n W ys sig) (l1_prior t) q).

(** the uncertainties of the state w in floats are within e of those of the state
    v: every range, and the threshold *)
Definition uncertainties_near (rnd : R -> float) (e alpha alpha' : R) (w : world fvec fvec float float G) (v : world vec vec C R G) : Prop :=
  (forall chain, i_chain (w_inst v) = Some chain -> exists rows rowsF, chain = map (map RtoC) rows /\ i_chain (w_inst w) = Some rowsF /\
     (rows <> [] -> forall j, (j < n)%nat -> exists x y, f_range_of rnd rowsF n (Fin alpha') j (Fin x) /\
       range_of (mkChain rows n) alpha j y /\ Rabs (x - y) <= e)) /\
  (forall vals, i_logPi (w_inst v) = Some vals -> exists l lF, vals = map RtoC l /\ i_logPi (w_inst w) = Some lF /\
     (l <> [] -> exists x y, f_region rnd lF (Fin alpha') = Ok (Fin x) /\ credible_region_threshold l alpha = Ok y /\ Rabs (x - y) <= e)).

Lemma near_uncertainties : forall v alpha e, 0 <= alpha <= 1 -> 0 < e -> exists d, 0 < d /\ forall rnd F d' alpha' w,
  rounding rnd F -> 0 < d' -> d' <= d -> accurate rnd (/ d') d' -> near_world n m d w v -> 0 <= alpha' <= 1 -> Rabs (alpha' - alpha) <= d' ->
  uncertainties_near rnd e alpha alpha' w v.
Proof.
  intros v alpha e Ha He. assert (AM := accurate_less).
  assert (MV : forall d d1 a b, d <= d1 -> near_vec n d a b -> near_vec n d1 a b).
  { intros d d1 a b Hd (x & y & E1 & E2 & L1 & L2 & D). exists x, y. repeat (split; [assumption|]). intros k Hk. specialize (D k Hk). lra. }
  assert (MN : forall d d1 a b, d <= d1 -> near_num d a b -> near_num d1 a b).
  { intros d d1 a b Hd (x & y & E1 & E2 & D). exists x, y. repeat (split; [assumption|]). lra. }
  assert (P1 : exists d, 0 < d /\ forall rnd F d' d2 alpha' w, rounding rnd F -> 0 < d' -> d' <= d -> d2 <= d -> accurate rnd (/ d') d' -> near_world n m d2 w v -> 0 <= alpha' <= 1 -> Rabs (alpha' - alpha) <= d' ->
    forall rows j, i_chain (w_inst v) = Some (map (map RtoC) rows) -> rows <> [] -> (j < n)%nat ->
     exists rowsF x y, i_chain (w_inst w) = Some rowsF /\ f_range_of rnd rowsF n (Fin alpha') j (Fin x) /\
       range_of (mkChain rows n) alpha j y /\ Rabs (x - y) <= e).
  { destruct (Classical_Prop.classic (exists rows, i_chain (w_inst v) = Some (map (map RtoC) rows) /\ rows <> [])) as [(rows & Er & Hr)|NO].
    2: { exists 1. split; [lra|]. intros rnd F d' d2 alpha' w _ _ _ _ _ _ _ _ rows j Er Hr. elim NO. eauto. }
    destruct (C68_ranges_limit n rows alpha e Hr ltac:(lra) He) as (d & Hd & LIM). exists d. split; [exact Hd|].
    intros rnd F d' d2 alpha' w H D0 D1 D2 AC NW Ha' Hal rows' j Er' _ Hj.
    assert (rows' = rows). { rewrite Er in Er'. injection Er' as Q. clear - Q. revert rows Q. induction rows' as [|r rows' IH]; intros [|r2 rows] Q; try discriminate; auto.
      injection Q as Q1 Q2. apply RtoC_map_inj in Q1. rewrite (IH _ Q2). congruence. } subst rows'.
    destruct NW as (NI & _). assert (NC := ri_chain _ _ _ _ _ _ NI). rewrite Er in NC. cbn in NC. destruct (i_chain (w_inst w)) as [rowsF|]; [|contradiction].
    apply (f2_weaken _ _ (fun a b => MV d2 d a b D2)) in NC.
    destruct (LIM rnd F rowsF alpha' H (AM _ _ _ D0 D1 AC) NC ltac:(lra) ltac:(lra) j Hj) as (x & y & X). exists rowsF, x, y. split; [reflexivity|exact X]. }
  assert (P2 : exists d, 0 < d /\ forall rnd F d' d2 alpha' w, rounding rnd F -> 0 < d' -> d' <= d -> d2 <= d -> accurate rnd (/ d') d' -> near_world n m d2 w v -> 0 <= alpha' <= 1 -> Rabs (alpha' - alpha) <= d' ->
    forall l, i_logPi (w_inst v) = Some (map RtoC l) -> l <> [] ->
     exists lF x y, i_logPi (w_inst w) = Some lF /\ f_region rnd lF (Fin alpha') = Ok (Fin x) /\
       credible_region_threshold l alpha = Ok y /\ Rabs (x - y) <= e).
  { destruct (Classical_Prop.classic (exists l, i_logPi (w_inst v) = Some (map RtoC l) /\ l <> [])) as [(l & Er & Hr)|NO].
    2: { exists 1. split; [lra|]. intros rnd F d' d2 alpha' w _ _ _ _ _ _ _ _ l Er Hr. elim NO. eauto. }
    assert (TE : credible_region_threshold l alpha = Ok (interp (rsort l) ((1 - alpha) * INR (length l - 1)))) by (unfold credible_region_threshold; apply np_quantile_Ok; auto; lra).
    destruct (C68_region_limit l alpha _ e TE He) as (d & Hd & LIM). exists d. split; [exact Hd|].
    intros rnd F d' d2 alpha' w H D0 D1 D2 AC NW Ha' Hal l' Er' _.
    assert (l' = l) by (rewrite Er in Er'; injection Er' as Q; now apply RtoC_map_inj). subst l'.
    destruct NW as (NI & _). assert (NC := ri_logPi _ _ _ _ _ _ NI). rewrite Er in NC. cbn in NC. destruct (i_logPi (w_inst w)) as [lF|]; [|contradiction].
    apply (f2_weaken _ _ (fun a b => MN d2 d a b D2)) in NC.
    destruct (LIM rnd F lF alpha' H (AM _ _ _ D0 D1 AC) NC Ha' ltac:(lra)) as (x & X1 & X2). exists lF, x. eexists. split; [reflexivity|]. split; [exact X1|]. split; [exact TE|exact X2]. }
  destruct P1 as (d1 & H1 & P1). destruct P2 as (d2 & H2 & P2).
  exists (Rmin d1 d2). assert (Q1 := Rmin_l d1 d2). assert (Q2 := Rmin_r d1 d2).
  split; [now apply Rmin_glb_lt|]. intros rnd F d' alpha' w H D0 D1 AC NW Ha' Hal.
  assert (U1 := P1 rnd F d' (Rmin d1 d2) alpha' w H D0 ltac:(lra) Q1 AC NW Ha' Hal).
  assert (U2 := P2 rnd F d' (Rmin d1 d2) alpha' w H D0 ltac:(lra) Q2 AC NW Ha' Hal).
  destruct NW as (NI & _). assert (NC := ri_chain _ _ _ _ _ _ NI). assert (NL := ri_logPi _ _ _ _ _ _ NI). split.
  - intros chain Ec. rewrite Ec in NC. cbn in NC. destruct (i_chain (w_inst w)) as [rowsF|]; [|contradiction].
    assert (RR : exists rows, chain = map (map RtoC) rows).
    { clear - NC. induction NC as [|a b la lb (x & y & _ & -> & _) F2 (rows & ->)]; [exists []; reflexivity|]. exists (y :: rows). reflexivity. }
    destruct RR as (rows & ->). exists rows, rowsF. split; [reflexivity|]. split; [reflexivity|]. intros Hr j Hj.
    destruct (U1 rows j Ec Hr Hj) as (rF & x & y & E & X). injection E as <-. eauto.
  - intros vals Ev. rewrite Ev in NL. cbn in NL. destruct (i_logPi (w_inst w)) as [lF|]; [|contradiction].
    assert (RR : exists l, vals = map RtoC l).
    { clear - NL. induction NL as [|a b la lb (x & y & _ & -> & _) F2 (l & ->)]; [exists []; reflexivity|]. exists (y :: l). reflexivity. }
    destruct RR as (l & ->). exists l, lF. split; [reflexivity|]. split; [reflexivity|]. intros Hr.
    destruct (U2 l Ev Hr) as (rF & x & y & E & X). injection E as <-. eauto.
Qed.

Theorem C68_myula_limit : forall prm fuel start v e alpha, 0 <= alpha <= 1 -> 0 < e -> exists d, 0 < d /\ forall rnd F i w alpha',
  rounding rnd F -> accurate rnd (/ d) d -> near_start n d i start -> near_world n m d w v -> 0 <= alpha' <= 1 -> Rabs (alpha' - alpha) <= d ->
  uncertainties_near rnd e alpha alpha' (fst (myula_run (fops rnd) prm fuel i w)) (fst (myula_run real prm fuel start v)).
Proof.
  intros prm fuel start v e alpha Ha He.
  destruct (near_uncertainties (fst (myula_run real prm fuel start v)) alpha e Ha He) as (d1 & H1 & U).
  destruct (C66_myula R0 n W ys sig t q PS prm fuel start v d1 H1) as (d2 & H2 & L).
  exists (Rmin d1 d2). assert (Q1 := Rmin_l d1 d2). assert (Q2 := Rmin_r d1 d2). assert (Q0 : 0 < Rmin d1 d2) by now apply Rmin_glb_lt.
  split; [exact Q0|]. intros rnd F i w alpha' H AC NS NW Ha' Hal. apply (U rnd F (Rmin d1 d2) alpha' _ H Q0 Q1 AC); auto.
  apply L; [exact (accurate_less _ _ _ Q0 Q2 AC)|exact (near_start_mono _ _ _ _ _ Q2 NS)|exact (near_world_mono _ _ _ _ _ _ Q2 NW)].
Qed.
Theorem C68_skrock_limit : (1 <= n_s q)%Z -> forall prm fuel start v e alpha, 0 <= alpha <= 1 -> 0 < e -> exists d, 0 < d /\ forall rnd F i w alpha',
  rounding rnd F -> accurate rnd (/ d) d -> near_start n d i start -> near_world n m d w v -> 0 <= alpha' <= 1 -> Rabs (alpha' - alpha) <= d ->
  uncertainties_near rnd e alpha alpha' (fst (skrock_run (sops rnd) prm fuel i w)) (fst (skrock_run real prm fuel start v)).
Proof.
  intros Hs prm fuel start v e alpha Ha He.
  destruct (near_uncertainties (fst (skrock_run real prm fuel start v)) alpha e Ha He) as (d1 & H1 & U).
  destruct (C66_skrock R0 n W ys sig t q PS Hs prm fuel start v d1 H1) as (d2 & H2 & L).
  exists (Rmin d1 d2). assert (Q1 := Rmin_l d1 d2). assert (Q2 := Rmin_r d1 d2). assert (Q0 : 0 < Rmin d1 d2) by now apply Rmin_glb_lt.
  split; [exact Q0|]. intros rnd F i w alpha' H AC NS NW Ha' Hal. apply (U rnd F (Rmin d1 d2) alpha' _ H Q0 Q1 AC); auto.
  apply L; [exact (accurate_less _ _ _ Q0 Q2 AC)|exact (near_start_mono _ _ _ _ _ Q2 NS)|exact (near_world_mono _ _ _ _ _ _ Q2 NW)].
Qed.
Theorem C68_pxmala_limit : forall prm tune fuel start v e alpha, no_ties real prm tune fuel start v -> 0 <= alpha <= 1 -> 0 < e -> exists d, 0 < d /\ forall rnd F i w alpha',
  rounding rnd F -> accurate rnd (/ d) d -> near_start n d i start -> near_world n m d w v -> 0 <= alpha' <= 1 -> Rabs (alpha' - alpha) <= d ->
  uncertainties_near rnd e alpha alpha' (fst (pxmala_run (fops rnd) prm tune fuel i w)) (fst (pxmala_run real prm tune fuel start v)).
Proof.
  intros prm tune fuel start v e alpha NT Ha He.
  destruct (near_uncertainties (fst (pxmala_run real prm tune fuel start v)) alpha e Ha He) as (d1 & H1 & U).
  destruct (C66_pxmala R0 n W ys sig t q PS prm tune fuel start v d1 NT H1) as (d2 & H2 & L).
  exists (Rmin d1 d2). assert (Q1 := Rmin_l d1 d2). assert (Q2 := Rmin_r d1 d2). assert (Q0 : 0 < Rmin d1 d2) by now apply Rmin_glb_lt.
  split; [exact Q0|]. intros rnd F i w alpha' H AC NS NW Ha' Hal. apply (U rnd F (Rmin d1 d2) alpha' _ H Q0 Q1 AC); auto.
  apply L; [exact (accurate_less _ _ _ Q0 Q2 AC)|exact (near_start_mono _ _ _ _ _ Q2 NS)|exact (near_world_mono _ _ _ _ _ _ Q2 NW)].
Qed.
End Runs.
Print Assumptions C68_myula_limit.
Print Assumptions C68_skrock_limit.
Print Assumptions C68_pxmala_limit.
