(** C64: rounding errors of MYULA for path integrals and the L1 prior, from the
    arithmetic up. *)
From Coq Require Import List ZArith Lia Bool Reals Lra Psatz String.
From Coquelicot Require Import Coquelicot.
From Verif Require Import PyBase PyBaseFacts CVec OpSpec Forward FwdProof McmcSpec Measure P_Meas RSort Thresh ThreshSpec ThreshProof Prior Mcmc
  StepProof Sampler SamplerSpec P_Samplers StableProof P_Stable SkDivProof MomentProof Ieee IeeeProof P_Ieee ParamSpec RepSpec ExactProof P_Param
  SamplerFacts RoundProof P_Round FloatOps P_FloatOps P_FloatOpsB FloatProof FloatNear.
Import ListNotations.
Notation length := List.length.
Open Scope R_scope.

(** ** Vocabulary *)

(** entries of up to am, rows of up to K stored entries, columns of up to Kc *)
Definition path_size (n : nat) (W : list (list (nat * R))) (am K Kc : R) : Prop :=
  in_cols n W /\
  List.Forall (fun r => INR (length r) <= K /\ List.Forall (fun p => Rabs (snd p) <= am) r) W /\
  forall j, (j < n)%nat -> INR (length (filter (fun p => Nat.eqb (fst p) j) (List.concat W))) <= Kc.
(** sizes of predictions, residuals, weighted residuals and gradients for
    parameters of up to A, data of up to Y, weights of up to wm *)
Definition pred_size (am K A : R) : R := K * (am * A + 2).
Definition res_size (am K A Y : R) : R := pred_size am K A + Y + 1.
Definition wres_size (am K A Y wm : R) : R := wm * res_size am K A Y + 2.
Definition grad_size (am K Kc A Y wm : R) : R := Kc * (am * wres_size am K A Y wm + 2).
(** the error of a gradient; ew is the error of the weights *)
Definition wres_error (eps am K A Y wm ew : R) : R := wm * (2 * K * eps + eps) + ew * res_size am K A Y + 2 * eps.
Definition grad_error (eps am K Kc A Y wm ew : R) : R := Kc * (2 * eps + am * wres_error eps am K A Y wm ew).
(** all numbers that occur *)
Definition path_room (am K Kc A Y wm : R) : R :=
  Rmax (2 * A + 2) (Rmax (res_size am K A Y) (Rmax (wres_size am K A Y wm) (grad_size am K Kc A Y wm))).

(** ** The exact problem is what ForwardOperator builds *)
Theorem C64_init : forall inv n W ys sig, length sig = length ys -> (forall s, In s sig -> s <> 0) ->
  Forward_init inv (mkData (map RtoC ys) false) (SVec (map RtoC sig) false) "analysis" None (Some (path_meas n W)) (Some n) =
  Ok (path_fwd n W ys (map (fun s => 1 / (s * s)) sig)).
Proof.
  intros inv n W ys sig L NZ. unfold Forward_init, build_invcov. cbn [d_val d_complex]. rewrite !map_length, L, Nat.eqb_refl. cbn [rbind].
  change (known_setting "analysis") with true. cbv iota. unfold path_fwd. f_equal. f_equal. f_equal. rewrite !map_map. apply map_ext_in. intros s Hs.
  specialize (NZ s Hs). unfold variance. cbn [andb negb]. apply C_ext; cbn; field; nra.
Qed.
Print Assumptions C64_init.

(** with exact arithmetic the float model is the exact one: C59 gives equal runs *)
Theorem C64_exact : forall n W ys sig t, in_cols n W -> length ys = length W -> length sig = length W -> (forall s, In s sig -> s <> 0) ->
  f_weights Fin (map Fin sig) = map Fin (map (fun s => 1 / (s * s)) sig) /\
  same_problem n (length W) (f_paths Fin n (frows W) (map Fin ys) (f_weights Fin (map Fin sig)) (FScal (Fin t)))
    (path_fwd n W ys (map (fun s => 1 / (s * s)) sig)) (l1_prior t).
Proof.
  intros n W ys sig t IC L1 L2 NZ. assert (E : f_weights Fin (map Fin sig) = map Fin (map (fun s => 1 / (s * s)) sig)).
  { unfold f_weights. rewrite !map_map. apply map_ext_in. intros s Hs. specialize (NZ s Hs). cbn. destruct (Req_EM_T (s * s) 0); [nra|reflexivity]. }
  split; [exact E|]. rewrite E. apply exact_paths; auto. now rewrite map_length.
Qed.
Print Assumptions C64_exact.

(** ** Rounding errors *)

Lemma sp_bound : forall am A r x, 0 <= am -> 0 <= A -> List.Forall (fun p => Rabs (snd p) <= am) r -> within A x ->
  Rabs (sp r x) <= INR (length r) * (am * A).
Proof.
  intros am A r x Ha HA FA WA. induction FA as [|(i & a) r Hp FA IH].
  - unfold sp. cbn [map length INR]. change (rsum []) with 0. rewrite Rabs_R0. lra.
  - unfold sp in *. cbn [map fst snd length]. change (rsum (a * nth i x 0 :: map (fun p => snd p * nth (fst p) x 0) r)) with (a * nth i x 0 + rsum (map (fun p => snd p * nth (fst p) x 0) r)).
    rewrite S_INR. eapply Rle_trans; [apply Rabs_triang|].
    assert (Rabs (a * nth i x 0) <= am * A) by (rewrite Rabs_mult; apply Rmult_le_compat; auto using Rabs_pos; now apply within_nth). lra.
Qed.

Lemma adj_row : forall n W r, In r (adj n W) ->
  exists j, (j < n)%nat /\ length r = length (filter (fun p => Nat.eqb (fst p) j) (List.concat W)) /\
    forall p, In p r -> exists q, In q (List.concat W) /\ snd p = snd q.
Proof.
  intros n W r Hr. unfold adj in Hr. apply in_map_iff in Hr. destruct Hr as (j & <- & Hj). apply in_seq in Hj. exists j. split; [lia|].
  generalize 0%nat. clear. induction W as [|r W IH]; intros s; [split; [reflexivity|intros p []]|].
  cbn [length seq combine map List.concat fst snd]. destruct (IH (S s)) as (I1 & I2). split.
  - rewrite filter_app, !app_length, I1, map_length. reflexivity.
  - intros p Hp. apply in_app_or in Hp. destruct Hp as [Hp|Hp].
    + apply in_map_iff in Hp. destruct Hp as (q & <- & Hq). apply filter_In in Hq. exists q. split; [apply in_or_app; left; apply Hq|reflexivity].
    + destruct (I2 p Hp) as (q & Hq & E). exists q. split; [apply in_or_app; now right|exact E].
Qed.

(** weights computed as 1 / sig^2 *)
Theorem C64_weights : forall rnd M eps s0 sig, accurate rnd M eps -> eps <= 1 -> 0 < s0 -> 2 * eps <= s0 * s0 -> 2 / (s0 * s0) <= M ->
  (forall s, In s sig -> s0 <= Rabs s /\ s * s <= M) ->
  exists ws, f_weights rnd (map Fin sig) = map Fin ws /\ nearv (eps + 2 * eps / (s0 * s0 * (s0 * s0))) ws (map (fun s => 1 / (s * s)) sig).
Proof.
  intros rnd M eps s0 sig AC E1 H0 He HM HS. induction sig as [|s sig IH]; [exists []; split; [reflexivity|constructor]|].
  destruct IH as (ws & Ew & Nw); [intros; apply HS; now right|]. destruct (HS s (or_introl eq_refl)) as (S1 & S2).
  destruct (near_weight rnd M eps AC E1 s0 s H0 S1 He S2 HM) as (w & E & N). exists (w :: ws). split.
  - unfold f_weights in *. cbn [map]. rewrite E, Ew. reflexivity.
  - constructor; auto.
Qed.
Print Assumptions C64_weights.

(** the float operators of the problem are close to the exact ones *)
Theorem C64_operators : forall rnd M eps n W ys ws ws' t am K Kc A A' Y wm ew kappa,
  accurate rnd M eps -> eps <= 1 -> 0 <= am -> 0 <= A -> 0 <= Y -> 0 <= wm -> 0 <= t -> 0 <= K -> 0 <= Kc ->
  path_size n W am K Kc -> length ys = length W -> within Y ys -> length ws = length W -> within wm ws -> 0 <= ew -> nearv ew ws ws' ->
  path_room am K Kc A Y wm <= M ->
  2 * A + 3 <= A' -> grad_size am K Kc A Y wm <= A' -> eps * (A + 3) <= kappa -> grad_error eps am K Kc A Y wm ew <= kappa ->
  approximates (f_paths rnd n (frows W) (map Fin ys) (map Fin ws) (FScal (Fin t))) (path_fwd n W ys ws') (l1_prior t) n A A' kappa.
Proof.
  intros rnd M eps n W ys ws ws' t am K Kc A A' Y wm ew kappa AC E1 Ham HA HY Hwm Ht HK HKc (IC & RS & CS) LY WY LW WW Hew NW HM HA1 HA2 HK1 HK2.
  assert (E0 : 0 <= eps) by apply AC.
  assert (M1 : 2 * A + 2 <= M) by (eapply Rle_trans; [|exact HM]; apply Rmax_l).
  assert (M2 : res_size am K A Y <= M) by (eapply Rle_trans; [|exact HM]; eapply Rle_trans; [|apply Rmax_r]; apply Rmax_l).
  assert (M3 : wres_size am K A Y wm <= M) by (eapply Rle_trans; [|exact HM]; eapply Rle_trans; [|apply Rmax_r]; eapply Rle_trans; [|apply Rmax_r]; apply Rmax_l).
  assert (M4 : grad_size am K Kc A Y wm <= M) by (eapply Rle_trans; [|exact HM]; eapply Rle_trans; [|apply Rmax_r]; eapply Rle_trans; [|apply Rmax_r]; apply Rmax_r).
  assert (AA : 0 <= am * A) by (apply Rmult_le_pos; auto). assert (PS : 0 <= pred_size am K A) by (unfold pred_size; apply Rmult_le_pos; lra).
  assert (RZ : 0 <= res_size am K A Y) by (unfold res_size; lra).
  assert (WP : 0 <= wm * res_size am K A Y) by (apply Rmult_le_pos; auto).
  split; [assert (0 <= eps * (A + 3)) by (apply Rmult_le_pos; lra); lra|]. split; [reflexivity|]. intros x Lx Wx.
  assert (FR : List.Forall (fun r => List.Forall (fun p => Rabs (snd p) <= am) r /\ INR (length r) <= K) W).
  { eapply Forall_impl; [|exact RS]. cbn. tauto. }
  assert (FC : List.Forall (fun r => List.Forall (fun p => Rabs (snd p) <= am) r /\ INR (length r) <= Kc) (adj n W)).
  { apply Forall_forall. intros r Hr. destruct (adj_row n W r Hr) as (j & Hj & Lr & Hp). split.
    - apply Forall_forall. intros p Ip. destruct (Hp p Ip) as (q & Iq & ->). apply in_concat in Iq. destruct Iq as (r0 & I0 & Iq).
      rewrite Forall_forall in RS. destruct (RS r0 I0) as (_ & Q). rewrite Forall_forall in Q. now apply Q.
    - rewrite Lr. now apply CS. }
  (* predictions *)
  destruct (near_rows rnd M eps AC E1 am A 0 K x x Ham HA (Rle_refl 0) Wx (nearv_refl 0 x (Rle_refl 0))) with (W := W) as (ds & Ed & Bd & Nd).
  { unfold res_size, pred_size in M2, PS. lra. } { exact FR. }
  fold (pred_size am K A) in Bd. replace (K * (2 * eps + am * 0)) with (2 * K * eps) in Nd by ring.
  assert (Ld : length ds = length W) by (rewrite (nearv_length _ _ _ Nd); apply map_length).
  (* residuals *)
  assert (EP : 0 <= 2 * K * eps) by (apply Rmult_le_pos; lra).
  destruct (near_residual rnd M eps AC E1 (pred_size am K A) Y (2 * K * eps) ds _ ys EP Bd Nd WY ltac:(congruence)) as (rs & Er & Br & Nr).
  { unfold res_size in M2. lra. }
  fold (res_size am K A Y) in Br.
  assert (Br' : within (res_size am K A Y) (map2 Rminus (map (fun r => sp r x) W) ys)).
  { clear - IC RS WY LY Wx Ham HA HY HK AA. unfold res_size, pred_size.
    assert (Q : forall W, List.Forall (fun r => INR (length r) <= K /\ List.Forall (fun p => Rabs (snd p) <= am) r) W -> forall ys, within Y ys ->
       within (K * (am * A + 2) + Y + 1) (map2 Rminus (map (fun r => sp r x) W) ys)).
    { clear - Wx Ham HA HY HK AA. induction W as [|r W IH]; intros RS ys WY; [constructor|]. inversion RS as [|? ? (R1 & R2) RS']; subst.
      destruct ys as [|y ys]; [constructor|]. inversion WY as [|? ? Hy WY']; subst. cbn [map map2]. constructor; [|apply IH; auto].
      assert (B := sp_bound am A r x Ham HA R2 Wx). assert (INR (length r) * (am * A) <= K * (am * A)) by (apply Rmult_le_compat_r; auto).
      unfold Rminus. eapply Rle_trans; [apply Rabs_triang|]. rewrite Rabs_Ropp. lra. }
    apply Q; auto. }
  assert (Lr : length rs = length W).
  { rewrite (nearv_length _ _ _ Nr), map2_len by (rewrite map_length; congruence). apply map_length. }
  (* weighted residuals *)
  destruct (near_weigh rnd M eps AC E1 wm ew (res_size am K A Y) (2 * K * eps + eps) ws ws' rs _ Hwm RZ ltac:(lra) WW NW Br Br' Nr ltac:(congruence)) as (us & Eu & Bu & Nu).
  { unfold wres_size in M3. lra. }
  fold (wres_size am K A Y wm) in Bu. fold (wres_error eps am K A Y wm ew) in Nu.
  assert (UE : 0 <= wres_error eps am K A Y wm ew).
  { unfold wres_error. assert (0 <= wm * (2 * K * eps + eps)) by (apply Rmult_le_pos; lra). assert (0 <= ew * res_size am K A Y) by (apply Rmult_le_pos; auto). lra. }
  assert (Lw' : length ws' = length W) by (rewrite <- (nearv_length _ _ _ NW); exact LW).
  assert (Lu : length us = length W).
  { rewrite (nearv_length _ _ _ Nu), map2_len; [exact Lw'|]. rewrite map2_len; rewrite map_length; congruence. }
  (* gradients *)
  destruct (near_rows rnd M eps AC E1 am (wres_size am K A Y wm) (wres_error eps am K A Y wm ew) Kc us _ Ham ltac:(unfold wres_size; lra) UE Bu Nu) with (W := adj n W) as (gs & Eg & Bg & Ng).
  { exact M4. } { exact FC. }
  fold (grad_size am K Kc A Y wm) in Bg. fold (grad_error eps am K Kc A Y wm ew) in Ng.
  assert (Lg : length gs = n) by (rewrite (nearv_length _ _ _ Ng), map_length; apply adj_length).
  (* soft *)
  destruct (near_soft rnd M eps AC E1 A t x Ht Wx M1) as (ps & Ep & Bp & Np).
  assert (Lp : length ps = n) by (rewrite (nearv_length _ _ _ Np), map_length; exact Lx).
  exists (map Fin ds), gs, ps. split.
  { cbn [f_paths fp_forward]. unfold f_path_forward. rewrite map_length, Lx, Nat.eqb_refl. now rewrite Ed. }
  split. { cbn [f_paths fp_gradg]. unfold f_gradg. rewrite Er. cbn [rbind]. rewrite Eu. cbn [rbind]. unfold f_path_adjoint.
    unfold frows at 1. rewrite !map_length, Lu, Nat.eqb_refl, frows_adj. now rewrite Eg. }
  split. { cbn [f_paths fp_proxf f_soft]. now rewrite Ep. }
  split; [exact Lg|]. split; [exact Lp|]. split; [eapply within_weaken; eauto|]. split; [eapply within_weaken; eauto|].
  intros d g p F1 F2 F3. rewrite forward_exact in F1 by auto. injection F1 as <-.
  rewrite gradg_exact in F2 by (rewrite ?map_length; congruence). injection F2 as <-.
  cbn [l1_prior pr_proxf] in F3. rewrite soft_real in F3. injection F3 as <-.
  split; apply near_close; eapply nearv_weaken; eauto.
Qed.
Print Assumptions C64_operators.

(** the problem is convex if its curvature is bounded *)
Theorem C64_convex : forall n W ys ws t lo hi, length ys = length W -> length ws = length W -> 0 <= t -> 0 <= lo -> 0 < hi ->
  curvature_between (path_fwd n W ys ws) n lo hi ->
  convex_problem (path_fwd n W ys ws) (l1_prior t) n (length W) lo hi.
Proof.
  intros n W ys ws t lo hi L1 L2 Ht Hlo Hhi HC. split; [reflexivity|]. split.
  { left. split; [reflexivity|]. exists (path_meas n W). split; [reflexivity|]. apply (C30_adjoint (dense n W)). }
  split. { split; [cbn; rewrite map_length; exact L2|]. split; [cbn; rewrite map_length; exact L2|]. intros i j Hi Hj. cbn. rewrite (Nat.eqb_sym j i).
    rewrite !(map_nth RtoC). destruct (Nat.eqb_spec i j) as [->|]; apply C_ext; cbn; ring. }
  split; [cbn; rewrite map_length; exact L1|]. split; [|auto].
  apply (C56_proximal _ n (wl1 (repeat t n))). intros X LX. exists (map2 soft1 X (repeat t n)). cbn [pr_proxf l1_prior]. split.
  - apply soft_thresholds. rewrite LX. split; [apply repeat_length|reflexivity].
  - apply soft_is_prox; [rewrite repeat_length; auto|]. intros y Hy. apply repeat_spec in Hy. lra.
Qed.
Print Assumptions C64_convex.

(** ** Runs: the float chain stays near the exact one *)
Theorem C64_runs : forall G (R0 : rng G) laplace rand rnd n W ys sig t fmu q lo hi M eps d am K Kc A A' Y wm s0 Wn kappa Rad,
  let wse := map (fun s => 1 / (s * s)) sig in let ew := eps + 2 * eps / (s0 * s0 * (s0 * s0)) in
  let f := path_fwd n W ys wse in let pr := l1_prior t in let rho := sqrt (rate (n_lmda q) d lo hi) in
  let ff := f_paths rnd n (frows W) (map Fin ys) (f_weights rnd (map Fin sig)) (FScal (Fin t)) in
  let fo := fl_ops rnd (g_randn R0) laplace rand ff (Fin (n_lmda q)) fmu in
  good_rng R0 -> (forall g, within Wn (fst (g_randn R0 n g))) ->
  0 < n_lmda q -> n_complex q = false -> 0 < d -> 0 <= lo -> lo <= hi -> 0 < hi -> curvature_between f n lo hi ->
  d * (/ n_lmda q + hi) <= 2 -> rho < 1 ->
  0 <= am -> 0 <= A -> 0 <= Y -> 0 <= t -> 0 <= K -> 0 <= Kc -> path_size n W am K Kc ->
  length ys = length W -> within Y ys -> length sig = length W ->
  0 < s0 -> 2 * eps <= s0 * s0 -> 2 / (s0 * s0) <= M -> (forall s, In s sig -> s0 <= Rabs s /\ s * s <= M) -> 1 / (s0 * s0) + ew <= wm ->
  path_room am K Kc A Y wm <= M -> 2 * A + 3 <= A' -> grad_size am K Kc A Y wm <= A' ->
  eps * (A + 3) <= kappa -> grad_error eps am K Kc A Y wm ew <= kappa ->
  sizes_fit rnd f pr q n M eps d A A' Wn kappa Rad rho ->
  forall prm N fuel1 fuel2 sh x w1 w2 w1' w2' c1 c2,
  length x = n -> nm (map RtoC x) <= Rad ->
  sized (w_inst w1) N -> sized (w_inst w2) N -> p_nsamples prm = Z.of_nat N ->
  i_delta (w_inst w1) = Fin d -> i_delta (w_inst w2) = d -> w_rng w1 = w_rng w2 ->
  myula_run fo prm fuel1 (Some (map Fin x)) w1 = (w1', Ret tt) ->
  myula_run (mcmc_ops R0 f pr q) prm fuel2 (StartArray sh (map RtoC x)) w2 = (w2', Ret tt) ->
  i_chain (w_inst w1') = Some c1 -> i_chain (w_inst w2') = Some c2 ->
  forall j r1 r2, (j < N)%nat -> nth_error c1 j = Some r1 -> nth_error c2 j = Some r2 ->
    exists y, r1 = map Fin y /\ length y = n /\ within A y /\
      nm (vsub (map RtoC y) r2) <= local_error n eps d (n_lmda q) A' kappa / (1 - rho).
Proof.
  intros G R0 laplace rand rnd n W ys sig t fmu q lo hi M eps d am K Kc A A' Y wm s0 Wn kappa Rad wse ew f pr rho ff fo
    GR BW Hl NC Hd HL0 HL HH CB ST RT Ham HA HY Ht HK HKc PS LY WY LS H0 He HM HS Hwm PR HA1 HA2 HK1 HK2 SF.
  destruct SF as (AC & E1 & SF). assert (E0 : 0 <= eps) by apply AC.
  destruct (C64_weights rnd M eps s0 sig AC E1 H0 He HM HS) as (ws & Ew & Nw). fold wse ew in Nw.
  assert (P4 : 0 < s0 * s0) by (apply Rmult_lt_0_compat; auto). assert (P8 : 0 < s0 * s0 * (s0 * s0)) by (apply Rmult_lt_0_compat; auto).
  assert (EW : 0 <= ew). { unfold ew. assert (0 <= 2 * eps / (s0 * s0 * (s0 * s0))) by (apply Rmult_le_pos; [lra|left; now apply Rinv_0_lt_compat]). lra. }
  assert (L1 : length wse = length W) by (unfold wse; rewrite map_length; exact LS).
  assert (L2 : length ws = length W) by (rewrite (nearv_length _ _ _ Nw); exact L1).
  assert (I0 : 0 < / (s0 * s0)) by now apply Rinv_0_lt_compat.
  assert (WW : within wm ws).
  { clear - Nw HS Hwm H0 P4 EW. unfold wse in Nw. revert ws Nw. induction sig as [|s sig IH]; intros ws Nw; inversion Nw as [|u v ws0 ? Hu Nw']; subst; constructor.
    - destruct (HS s (or_introl eq_refl)) as (S1 & S2). assert (Q : s0 * s0 <= s * s). { rewrite <- (Rabs_pos_eq (s * s)) by nra. rewrite Rabs_mult. apply Rmult_le_compat; lra. }
      assert (/ (s * s) <= / (s0 * s0)) by (apply Rinv_le_contravar; auto). assert (0 < / (s * s)) by (apply Rinv_0_lt_compat; lra).
      apply Rabs_le. apply Rabs_le_between in Hu. lra.
    - apply IH; auto. intros; apply HS; now right. }
  assert (AP := C64_operators rnd M eps n W ys ws wse t am K Kc A A' Y wm ew kappa AC E1 Ham HA HY ltac:(lra) Ht HK HKc PS LY WY L2 WW EW Nw PR HA1 HA2 HK1 HK2).
  assert (CP := C64_convex n W ys wse t lo hi LY L1 Ht ltac:(lra) HH CB). rewrite <- Ew in AP. fold f pr ff in AP, CP.
  exact (C62_runs G R0 laplace rand rnd ff fmu f pr q n (length W) lo hi M eps d A A' Wn kappa Rad GR BW CP Hl NC Hd ST HL RT AP (conj AC (conj E1 SF))).
Qed.
Print Assumptions C64_runs.

(** ** A concrete case: two pixels, three paths (one across each pixel, one across
    both), data 1, 1, 2 with errors 1, threshold 1/4, the grid of C62_case *)
Definition three_paths : list (list (nat * R)) := [[(0%nat, 1)]; [(1%nat, 1)]; [(0%nat, 1); (1%nat, 1)]].

Lemma three_curvature : curvature_between (path_fwd 2 three_paths [1; 1; 2] (map (fun s => 1 / (s * s)) [1; 1; 1])) 2 1 3.
Proof.
  intros [|a [|b [|c x]]] fx L E; try discriminate L. cbn in E. injection E as <-. destruct a as (a1 & a2), b as (b1 & b2).
  match goal with |- _ <= ?q <= _ => replace q with (a1 * a1 + a2 * a2 + (b1 * b1 + b2 * b2) + ((a1 + b1) * (a1 + b1) + (a2 + b2) * (a2 + b2))) by (unfold quadform; cbn; field) end.
  match goal with |- context [nrm2 ?v] => replace (nrm2 v) with (a1 * a1 + a2 * a2 + (b1 * b1 + b2 * b2)) end; [|clear; rewrite !nrm2_cons; unfold nrm2; cbn; ring].
  assert (Q1 := Rle_0_sqr (a1 - b1)). assert (Q2 := Rle_0_sqr (a2 - b2)). assert (Q3 := Rle_0_sqr (a1 + b1)). assert (Q4 := Rle_0_sqr (a2 + b2)).
  unfold Rsqr in *. split; lra.
Qed.

Example C64_case : forall R0 : rng nat, good_rng R0 -> (forall g, within 1 (fst (g_randn R0 2 g))) ->
  let f := path_fwd 2 three_paths [1; 1; 2] (map (fun s => 1 / (s * s)) [1; 1; 1]) in let pr := l1_prior (1 / 4) in let q := mkNum 1 1 1 false in
  let ff := f_paths grid 2 (frows three_paths) (map Fin [1; 1; 2]) (f_weights grid (map Fin [1; 1; 1])) (FScal (Fin (1 / 4))) in
  let fo := fl_ops grid (g_randn R0) (g_randn R0) (fun g => (0, g)) ff (Fin 1) (Fin 1) in
  forall N nburn ngap, (0 <= N)%Z ->
  let prm := {| p_nsamples := N; p_nburn := nburn; p_ngap := ngap; p_verbosity := 0; p_track := ["logposterior"; "L2"; "prior"; "chain"]%string |} in
  let fuel := total_iters nburn ngap (Z.to_nat N) in
  exists s1 s2 w1 w2 c1 c2, new_sampler fo prm (Fin (1 / 4)) = Ok s1 /\ new_sampler (mcmc_ops R0 f pr q) prm (1 / 4) = Ok s2 /\
    myula_run fo prm fuel (Some [Fin 0; Fin 0]) (mkWorld s1 0%nat) = (w1, Ret tt) /\
    myula_run (mcmc_ops R0 f pr q) prm fuel (StartArray [2%nat] [RtoC 0; RtoC 0]) (mkWorld s2 0%nat) = (w2, Ret tt) /\
    i_chain (w_inst w1) = Some c1 /\ i_chain (w_inst w2) = Some c2 /\ length c1 = Z.to_nat N /\ length c2 = Z.to_nat N /\
    forall j r1 r2, nth_error c1 j = Some r1 -> nth_error c2 j = Some r2 ->
      exists y z, r1 = [Fin y; Fin z] /\ nm (vsub [RtoC y; RtoC z] r2) <= 12 / 1000.
Proof.
  intros R0 GR BW f pr q ff fo N nburn ngap N0 prm fuel.
  assert (CP : convex_problem f pr 2 3 1 3) by (apply (C64_convex 2 three_paths [1; 1; 2] (map (fun s => 1 / (s * s)) [1; 1; 1]) (1 / 4) 1 3); try reflexivity; try lra; apply three_curvature).
  destruct (C56_runs_exist nat R0 f pr q prm 2 3 1 3 (1 / 4) 0%nat fuel [RtoC 0; RtoC 0] GR CP ltac:(cbn; lra) ltac:(intros; eexists; reflexivity) eq_refl N0 eq_refl
    (le_n _)) as (s2 & w2 & c2 & E2 & Z2 & D2 & M2 & C2 & L2). cbn [p_nsamples prm] in Z2, L2.
  destruct (C44_new_sampler_exists _ _ _ _ _ _ fo prm (Fin (1 / 4)) N0) as (s1 & E1).
  destruct (C44_new_sampler _ _ _ _ _ _ fo prm (Fin (1 / 4)) s1 E1) as (K1 & K2 & K3 & K4 & K5 & K6 & K7 & Z1). cbn in K1, K2, K3, K5.
  cbn [p_nsamples prm] in Z1. set (K := Z.to_nat N) in *.
  assert (EN : N = Z.of_nat K) by (unfold K; lia).
  assert (NM : ~ line_array_missing (w_inst (mkWorld s1 0%nat))).
  { unfold line_array_missing. cbn [w_inst]. rewrite K1, K2, K3. intros [H|[H|H]]; discriminate. }
  assert (GRL : forall k g, length (fst (g_randn R0 k g)) = k) by (intros k g; apply (GR k g)).
  assert (FS : float_shapes ff 2 3) by (apply (paths_shapes grid 2 (frows three_paths)); [reflexivity|reflexivity|exact I]).
  destruct (C58_runs_end grid nat (g_randn R0) (g_randn R0) (fun g => (0, g)) ff (Fin 1) (Fin 1) 2 3 prm false fuel (Some [Fin 0; Fin 0]) (mkWorld s1 0%nat) K
    GRL GRL FS ltac:(intros H; injection H; lra) ltac:(intros x H; injection H as <-; reflexivity) Z1 EN NM) as (RE & _).
  destruct (RE (le_n _)) as (w1 & M1). clear RE. fold fo in M1.
  destruct (C01_myula_schedule _ _ _ _ _ _ fo prm fuel _ (mkWorld s1 0%nat) w1 K Z1 EN M1) as (sa & tr1 & l1 & _ & _ & _ & _ & L1 & _ & R1 & _).
  destruct R1 as (_ & _ & _ & _ & R1). cbn [w_inst] in R1. rewrite K5 in R1. unfold rec_arr in R1.
  destruct (i_chain (w_inst w1)) as [c1|] eqn:C1; [|destruct R1].
  assert (LC1 : length c1 = K).
  { destruct R1 as (rows & F2 & LL & ->). assert (LR := Forall2_length _ _ _ F2). rewrite map_length in LR, LL.
    rewrite app_length, skipn_length, map_length, repeat_length. rewrite repeat_length in LL. lia. }
  exists s1, s2, w1, w2, c1, c2. split; [exact E1|]. split; [exact E2|]. split; [exact M1|]. split; [exact M2|]. split; [exact C1|]. split; [exact C2|].
  split; [exact LC1|]. split; [exact L2|]. intros j r1 r2 H1 H2.
  assert (Hj : (j < K)%nat) by (rewrite <- LC1; apply nth_error_Some; congruence).
  assert (RT : rate 1 (1 / 4) 1 3 = 3 / 4) by (unfold rate; field).
  assert (RB : 0 <= sqrt (3 / 4) <= 8661 / 10000).
  { split; [apply sqrt_pos|]. rewrite <- (sqrt_Rsqr (8661 / 10000)) by lra. apply sqrt_le_1_alt. unfold Rsqr. lra. }
  assert (S2 : 0 <= sqrt 2 <= 14143 / 10000).
  { split; [apply sqrt_pos|]. rewrite <- (sqrt_Rsqr (14143 / 10000)) by lra. apply sqrt_le_1_alt. unfold Rsqr. lra. }
  assert (SH : sqrt (2 * (1 / 4)) = / sqrt 2).
  { replace (2 * (1 / 4)) with (/ 2) by field. apply sqrt_inv. }
  assert (SP : 0 < sqrt 2) by (apply sqrt_lt_R0; lra).
  assert (P : 0 < / 2 ^ 20 <= / 10 ^ 6). { split; [apply Rinv_0_lt_compat, pow_lt; lra|]. apply Rinv_le_contravar; [apply pow_lt; lra|]. cbn [pow]. lra. }
  assert (P6 : / 10 ^ 6 = 1 / 1000000) by (cbn [pow]; field). rewrite P6 in P.
  set (e := / 2 ^ 20) in *.
  assert (AC : accurate grid 2000 e) by (split; [lra|]; intros x _; apply grid_near).
  clearbody e.
  assert (ER : 0 <= local_error 2 e (1 / 4) 1 172 (274 * e) / (1 - sqrt (3 / 4)) <= 12 / 1000).
  { unfold local_error, step_error. rewrite SH, Rinv_inv. replace (INR 2) with 2 by (cbn; lra).
    assert (B : 0 <= sqrt 2 * (e * (7 + 172 * (4 + sqrt 2)) + (1 / 4 / 1 + 1 / 4) * (274 * e)) <= 1522 * e).
    { replace (e * (7 + 172 * (4 + sqrt 2)) + (1 / 4 / 1 + 1 / 4) * (274 * e)) with (e * (832 + 172 * sqrt 2)) by field.
      assert (0 <= sqrt 2 * (832 + 172 * sqrt 2) <= 1522) by nra. replace (sqrt 2 * (e * (832 + 172 * sqrt 2))) with (sqrt 2 * (832 + 172 * sqrt 2) * e) by ring. nra. }
    assert (0 < / (1 - sqrt (3 / 4)) <= / (1339 / 10000)) by (split; [apply Rinv_0_lt_compat; lra|apply Rinv_le_contravar; lra]).
    replace (/ (1339 / 10000)) with (10000 / 1339) in H by field.
    revert B H. generalize (sqrt 2 * (e * (7 + 172 * (4 + sqrt 2)) + (1 / 4 / 1 + 1 / 4) * (274 * e))). intros z B H. change (z / (1 - sqrt (3 / 4))) with (z * / (1 - sqrt (3 / 4))). generalize dependent (/ (1 - sqrt (3 / 4))). intros v H.
    split; [apply Rmult_le_pos; lra|]. apply Rle_trans with (1522 * e * (10000 / 1339)); [apply Rmult_le_compat; lra|lra]. }
  assert (EG : gradlogpi f pr q (vzero 2) None = Ok [RtoC 3; RtoC 3]).
  { change (vzero 2) with (map RtoC [0; 0]). unfold gradlogpi. cbn [pr_proxf pr l1_prior]. rewrite soft_real. cbn [map].
    replace (rsoft (1 / 4) 0) with 0 by (unfold rsoft; rewrite Rabs_R0; destruct (Rle_dec 0 (1 / 4)); lra).
    change [RtoC 0; RtoC 0] with (map RtoC [0; 0]). unfold f. rewrite forward_exact; [|repeat constructor|reflexivity]. cbn [rbind]. rewrite gradg_exact by reflexivity.
    cbn. unfold grad, sp. cbn. f_equal. f_equal; [|f_equal]; apply C_ext; cbn; field. }
  assert (SF : sizes_fit grid f pr q 2 2000 e (1 / 4) 17 172 1 (274 * e) 16 (sqrt (rate (n_lmda q) (1 / 4) 1 3))).
  { cbn [n_lmda q]. rewrite RT. split; [exact AC|]. split; [lra|]. split; [lra|]. split; [unfold room; cbn [n_lmda q]; lra|]. split; [lra|]. split; [lra|].
    split; [|cbn [n_lmda q]; lra]. exists [RtoC 3; RtoC 3]. split; [exact EG|]. replace (INR 2) with 2 by (cbn; lra). rewrite SH.
    replace (nm [RtoC 3; RtoC 3]) with (3 * sqrt 2); [|unfold nm; rewrite !nrm2_cons; unfold nrm2; cbn].
    - replace (/ sqrt 2 * (sqrt 2 * 1)) with 1 by (field; lra). lra.
    - replace 3 with (sqrt (3 * 3)) at 1 by (apply sqrt_square; lra). rewrite <- sqrt_mult by lra. f_equal. ring. }
  destruct (C64_runs nat R0 (g_randn R0) (fun g => (0, g)) grid 2 three_paths [1; 1; 2] [1; 1; 1] (1 / 4) (Fin 1) q 1 3 2000 e (1 / 4) 1 2 2 17 172 2 2 1 1 (274 * e) 16
    GR BW) with (prm := prm) (N := K) (fuel1 := fuel) (fuel2 := fuel) (sh := [2%nat]) (x := [0; 0]) (w1 := mkWorld s1 0%nat) (w2 := mkWorld s2 0%nat)
    (w1' := w1) (w2' := w2) (c1 := c1) (c2 := c2) (j := j) (r1 := r1) (r2 := r2) as (y & -> & Ly & _ & D);
    auto; try reflexivity; cbn [n_lmda q]; rewrite ?RT; try lra; unfold path_room, grad_error, wres_error, grad_size, wres_size, res_size, pred_size; try lra.
  - apply three_curvature.
  - split; [repeat constructor|]. split; [repeat constructor; cbn; try lra; rewrite Rabs_R1; lra|]. intros [|[|j']] H; [| |lia]; cbn; lra.
  - repeat constructor; rewrite ?Rabs_R1; rewrite ?(Rabs_pos_eq 2); lra.
  - intros s [<- | [<- | [<- | []]]]; rewrite Rabs_R1; lra.
  - repeat apply Rmax_lub; lra.
  - cbn [map]. unfold nm. rewrite !nrm2_cons. unfold nrm2. cbn. match goal with |- sqrt ?z <= _ => replace z with 0 by ring end. rewrite sqrt_0. lra.
  - destruct y as [|y [|z [|? ?]]]; try discriminate Ly. exists y, z. split; [reflexivity|]. cbn [map n_lmda q] in D. rewrite RT in D. lra.
Qed.

(** a generator of that kind *)
Lemma alternating_two : good_rng alternating /\ forall g, within 1 (fst (g_randn alternating 2 g)).
Proof.
  split; [apply alternating_ok|]. intros g. cbn. destruct (Nat.even g); (constructor; [apply Rabs_le; lra|constructor; [apply Rabs_le; lra|constructor]]).
Qed.
