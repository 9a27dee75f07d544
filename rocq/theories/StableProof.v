(** Lemmas for P_Stable.v: the Langevin step without its noise is a
    contraction when the step size is small. *)
From Coq Require Import List ZArith Lia Bool Reals Lra Psatz String.
From Coquelicot Require Import Coquelicot.
From Verif Require Import PyBase PyBaseFacts CVec Thresh ThreshSpec ThreshProof OpSpec Utils UtilsProof Prior Forward McmcSpec FwdProof
  Sampler Mcmc StepProof P_Mcmc.
Import ListNotations.
Open Scope R_scope.

Lemma nrm2_vsub_expand : forall a b, length a = length b ->
  nrm2 (vsub a b) = nrm2 a - 2 * Re (cdot b a) + nrm2 b.
Proof.
  intros a b L. assert (E : cdot (vsub a b) (vsub a b) = RtoC (nrm2 (vsub a b))) by apply cdot_self.
  apply (f_equal Re) in E. rewrite Re_RtoC in E. rewrite <- E.
  rewrite cdot_vsub_l by (rewrite ?vsub_length; congruence). rewrite !cdot_vsub_r by congruence.
  rewrite !Re_minus, !cdot_self, !Re_RtoC. rewrite <- (cdot_conj b a), Re_conj. lra.
Qed.
Lemma Re_cdot_sym : forall a b, Re (cdot a b) = Re (cdot b a).
Proof. intros. rewrite <- (cdot_conj b a), Re_conj. reflexivity. Qed.
Lemma nrm2_vadd_expand : forall a b, length a = length b ->
  nrm2 (vadd a b) = nrm2 a + 2 * Re (cdot a b) + nrm2 b.
Proof.
  intros a b L. assert (E : cdot (vadd a b) (vadd a b) = RtoC (nrm2 (vadd a b))) by apply cdot_self.
  apply (f_equal Re) in E. rewrite Re_RtoC in E. rewrite <- E.
  rewrite cdot_vadd_l by (rewrite ?vadd_length; congruence). rewrite !cdot_vadd_r by congruence.
  rewrite !Re_plus, !cdot_self, !Re_RtoC. rewrite (Re_cdot_sym b a). lra.
Qed.
Lemma nrm2_vscal_R : forall t a, nrm2 (vscal (RtoC t) a) = t ^ 2 * nrm2 a.
Proof. intros. rewrite nrm2_vscal, Cmod_R, pow2_abs. reflexivity. Qed.
Lemma Re_cdot_vscal_l : forall t a b, Re (cdot (vscal (RtoC t) a) b) = t * Re (cdot a b).
Proof. intros. rewrite cdot_vscal_l, Cconj_R, Re_scal. reflexivity. Qed.
Lemma Re_cdot_vscal_r : forall t a b, Re (cdot a (vscal (RtoC t) b)) = t * Re (cdot a b).
Proof. intros. rewrite cdot_vscal_r, Re_scal. reflexivity. Qed.

Lemma linear_scal : forall f n m x c fx, linear f n -> maps f n m -> length x = n -> f x = Ok fx ->
  f (vscal c x) = Ok (vscal c fx).
Proof.
  intros f n m x c fx LF MF Lx Ex. assert (Lz : length (vzero n) = n) by (unfold vzero; apply repeat_length).
  destruct (MF _ Lz) as (fz & Ez & Lfz). assert (Lfx := maps_len _ _ _ _ _ MF Lx Ex).
  assert (Z : fz = vzero m).
  { assert (Q := LF (vzero n) (vzero n) (RtoC (-1)) fz fz Lz Lz Ez Ez).
    assert (E0 : vadd (vzero n) (vscal (RtoC (-1)) (vzero n)) = vzero n).
    { unfold vadd, vscal, vzero. clear. induction n; cbn; auto. f_equal; auto. ring. }
    rewrite E0, Ez in Q. injection Q as Q. rewrite Q. clear - Lfz. subst m. unfold vadd, vscal, vzero.
    induction fz as [|a fz IH]; cbn; auto. f_equal; auto. destruct a; apply C_ext; simpl; ring. }
  assert (Q := LF (vzero n) x c fz fx Lz Lx Ez Ex). subst fz.
  assert (E1 : forall k (v : vec), length v = k -> vadd (vzero k) (vscal c v) = vscal c v).
  { clear. intros k v <-. unfold vadd, vscal, vzero. induction v; cbn; auto. f_equal; auto. ring. }
  rewrite (E1 n x Lx), (E1 m fx Lfx) in Q. exact Q.
Qed.

(** ** proximal points move less than their arguments *)

Lemma prox_firm : forall h X Y s t, length X = length Y -> is_prox h X s -> is_prox h Y t ->
  nrm2 (vsub s t) <= Re (cdot (vsub s t) (vsub X Y)).
Proof.
  intros h X Y s t L (Ls & Hs) (Lt & Ht).
  specialize (Hs t ltac:(congruence)). specialize (Ht s ltac:(congruence)). unfold prox_objective in Hs, Ht.
  rewrite !nrm2_vsub_expand in * by congruence.
  rewrite cdot_vsub_l by (rewrite ?vsub_length; congruence). rewrite !cdot_vsub_r by congruence. rewrite !Re_minus.
  rewrite (Re_cdot_sym s t) in *. rewrite (Re_cdot_sym X t), (Re_cdot_sym X s), (Re_cdot_sym Y s), (Re_cdot_sym Y t) in *.
  lra.
Qed.
(** the same for X - prox X *)
Lemma residual_firm : forall h X Y s t, length X = length Y -> is_prox h X s -> is_prox h Y t ->
  let r := vsub (vsub X s) (vsub Y t) in nrm2 r <= Re (cdot r (vsub X Y)).
Proof.
  intros h X Y s t L Ps Pt r. assert (F := prox_firm h X Y s t L Ps Pt). destruct Ps as (Ls & _). destruct Pt as (Lt & _).
  assert (E : r = vsub (vsub X Y) (vsub s t)).
  { subst r. clear F. revert Y s t L Ls Lt. induction X as [|a X IH]; intros [|b Y] [|c s] [|d t]; cbn; intros; try lia; auto.
    unfold vsub in *. cbn. f_equal; [ring|apply IH; lia]. }
  rewrite E. assert (LD : length (vsub X Y) = length (vsub s t)) by (rewrite !vsub_length; congruence).
  rewrite nrm2_vsub_expand by auto. rewrite (cdot_vsub_l (vsub X Y) (vsub s t)) by congruence. rewrite Re_minus, cdot_self, Re_RtoC. lra.
Qed.

(** ** gradient of the data term *)

(** q x = Re (f x)^H W (f x) *)
Definition curvature_between (f : forward_op) (n : nat) (lo hi : R) : Prop :=
  forall x fx, length x = n -> fo_forward f x = Ok fx ->
    lo * nrm2 x <= Re (quadform (fo_invcov f) fx) <= hi * nrm2 x.

Lemma gradg_difference : forall f n m X Y fx fy gx gy, linear_model f n m -> hermitian (fo_invcov f) m ->
  length (d_val (fo_data f)) = m -> length X = n -> length Y = n ->
  fo_forward f X = Ok fx -> fo_forward f Y = Ok fy -> fo_gradg f fx = Ok gx -> fo_gradg f fy = Ok gy ->
  length gx = n /\ length gy = n /\ fo_forward f (vsub X Y) = Ok (vsub fx fy) /\ length (vsub fx fy) = m /\
  forall z fz, length z = n -> fo_forward f z = Ok fz ->
    cdot (vsub gx gy) z = cdot (matvec (fo_invcov f) (vsub fx fy)) fz.
Proof.
  intros f n m X Y fx fy gx gy LM HW Hd HX HY Ex Ey Egx Egy. destruct (linear_model_ops f n m LM) as (A & AP & EG).
  assert (LF := adjoint_linear _ _ _ _ AP). destruct AP as (MF & MA & AD).
  assert (Lfx := maps_len _ _ _ _ _ MF HX Ex). assert (Lfy := maps_len _ _ _ _ _ MF HY Ey).
  destruct HW as (R & E & _). rewrite EG in Egx, Egy.
  rewrite np_sub_same in Egx, Egy by congruence. cbn [rbind] in Egx, Egy.
  rewrite np_dot_ok in Egx, Egy by (rewrite vsub_length; congruence). cbn [rbind] in Egx, Egy.
  set (d := d_val (fo_data f)) in *.
  assert (L1 : length (matvec (fo_invcov f) (vsub fx d)) = m) by (rewrite matvec_length; auto).
  assert (L2 : length (matvec (fo_invcov f) (vsub fy d)) = m) by (rewrite matvec_length; auto).
  assert (Lgx := maps_len _ _ _ _ _ MA L1 Egx). assert (Lgy := maps_len _ _ _ _ _ MA L2 Egy).
  assert (LS : fo_forward f (vsub X Y) = Ok (vsub fx fy)) by (apply (linear_sub _ n); auto).
  split; [auto|]. split; [auto|]. split; [auto|]. split; [rewrite vsub_length; congruence|]. intros z fz Lz Ez.
  assert (Lfz := maps_len _ _ _ _ _ MF Lz Ez).
  rewrite cdot_vsub_l by congruence. rewrite <- (AD z _ fz gx Lz L1 Ez Egx), <- (AD z _ fz gy Lz L2 Ez Egy).
  rewrite <- cdot_vsub_l by congruence. f_equal.
  assert (LW : linear (np_dot (fo_invcov f)) m).
  { rewrite <- E. eapply adjoint_linear. apply np_dot_adjoint. }
  assert (Q : np_dot (fo_invcov f) (vsub (vsub fx d) (vsub fy d)) = Ok (vsub (matvec (fo_invcov f) (vsub fx d)) (matvec (fo_invcov f) (vsub fy d)))).
  { apply (linear_sub _ m); auto; try (rewrite vsub_length; congruence); apply np_dot_ok; rewrite vsub_length; congruence. }
  rewrite np_dot_ok in Q by (rewrite vsub_length; rewrite ?vsub_length; congruence).
  injection Q as Q. rewrite <- Q. f_equal.
  assert (Ld : length d = length fx) by congruence. assert (L3 : length fy = length fx) by congruence. clearbody d. clear - Ld L3.
  revert fy d Ld L3. induction fx as [|a fx IH]; intros [|b fy] [|c d]; cbn; intros; try lia; auto.
  unfold vsub in *. cbn. f_equal; [ring|apply IH; lia].
Qed.

(** co-coercivity: ||g(X) - g(Y)||^2 <= hi * <g(X) - g(Y), X - Y> *)
Lemma gradg_cocoercive : forall f n m lo hi X Y fx fy gx gy, linear_model f n m -> hermitian (fo_invcov f) m ->
  length (d_val (fo_data f)) = m -> 0 <= lo -> 0 < hi -> curvature_between f n lo hi -> length X = n -> length Y = n ->
  fo_forward f X = Ok fx -> fo_forward f Y = Ok fy -> fo_gradg f fx = Ok gx -> fo_gradg f fy = Ok gy ->
  let g := vsub gx gy in let d := vsub X Y in
  nrm2 g <= hi * Re (cdot g d) /\ lo * nrm2 d <= Re (cdot g d).
Proof.
  intros f n m lo hi X Y fx fy gx gy LM HW Hd Lo Hi CB HX HY Ex Ey Egx Egy g d.
  destruct (gradg_difference f n m X Y fx fy gx gy LM HW Hd HX HY Ex Ey Egx Egy) as (Lgx & Lgy & Ed & Lfd & AD).
  assert (Ld : length d = n) by (subst d; rewrite vsub_length; congruence).
  assert (Lg : length g = n) by (subst g; rewrite vsub_length; congruence).
  fold d in Ed. fold g in AD. set (fd := vsub fx fy) in *. set (W := fo_invcov f) in *.
  assert (HW' := HW). destruct HW' as (R & E & _).
  assert (Qd : Re (cdot g d) = Re (quadform W fd)).
  { rewrite (AD d fd Ld Ed). rewrite <- cdot_matvec_quadform by congruence. apply Re_cdot_sym. }
  destruct (CB d fd Ld Ed) as (B1 & B2). fold W in B1, B2. split; [|rewrite Qd; lra].
  destruct (linear_model_ops f n m LM) as (A & AP & _). assert (LF := adjoint_linear _ _ _ _ AP). destruct AP as (MF & _ & _).
  destruct (MF g Lg) as (fg & Eg & Lfg).
  assert (Ls : length (vscal (RtoC (/ hi)) g) = n) by (rewrite vscal_length; auto).
  assert (Es : fo_forward f (vscal (RtoC (/ hi)) g) = Ok (vscal (RtoC (/ hi)) fg)) by (apply (linear_scal _ n m); auto).
  assert (Et : fo_forward f (vsub d (vscal (RtoC (/ hi)) g)) = Ok (vsub fd (vscal (RtoC (/ hi)) fg))) by (apply (linear_sub _ n); auto).
  assert (Lt : length (vsub d (vscal (RtoC (/ hi)) g)) = n) by (rewrite vsub_length; congruence).
  destruct (CB _ _ Lt Et) as (B3 & _). fold W in B3.
  assert (N := nrm2_nonneg (vsub d (vscal (RtoC (/ hi)) g))).
  rewrite (quadform_expand W m) in B3 by (rewrite ?vscal_length; auto).
  destruct (CB _ _ Ls Es) as (_ & B4). fold W in B4. rewrite nrm2_vscal_R in B4.
  rewrite Re_plus, Re_minus, Re_RtoC, Re_cdot_vscal_r in B3. rewrite <- (AD g fg Lg Eg), cdot_self, Re_RtoC in B3.
  rewrite Qd. assert (I := Rinv_0_lt_compat _ Hi). assert (J : / hi * hi = 1) by (field; lra).
  assert (K : hi * ((/ hi) ^ 2 * nrm2 g) = / hi * nrm2 g) by (field; lra). rewrite K in B4.
  assert (0 <= lo * nrm2 (vsub d (vscal (RtoC (/ hi)) g))) by nra.
  assert (/ hi * nrm2 g <= Re (quadform W fd)) by lra.
  apply (Rmult_le_compat_l hi) in H0; [|lra]. rewrite <- Rmult_assoc, (Rmult_comm hi), J in H0. lra.
Qed.

(** ** two steps with the same noise *)

Lemma step_difference : forall l dl sc X Y p p' g g' w,
  length Y = length X -> length p = length X -> length p' = length X -> length g = length X -> length g' = length X -> length w = length X ->
  vsub (vadd (vadd X (vscal (RtoC dl) (vsub (vscal (RtoC (- / l)) (vsub X p)) g))) (vscal sc w))
       (vadd (vadd Y (vscal (RtoC dl) (vsub (vscal (RtoC (- / l)) (vsub Y p')) g'))) (vscal sc w)) =
  vsub (vsub X Y) (vscal (RtoC dl) (vadd (vscal (RtoC (/ l)) (vsub (vsub X p) (vsub Y p'))) (vsub g g'))).
Proof.
  intros l dl sc. unfold vsub, vadd, vscal.
  induction X as [|a X IH]; intros [|b Y] [|c p] [|d p'] [|e g] [|h g'] [|i w]; cbn; intros; try lia; auto.
  f_equal; [|apply IH; lia]. rewrite RtoC_opp. ring.
Qed.

Lemma contraction : forall lmda hi mu delta D r g, 0 < lmda -> 0 < hi -> 0 <= mu -> 0 <= delta -> delta * (/ lmda + hi) <= 2 ->
  length r = length D -> length g = length D ->
  nrm2 r <= Re (cdot r D) -> nrm2 g <= hi * Re (cdot g D) -> mu * nrm2 D <= Re (cdot g D) ->
  nrm2 (vsub D (vscal (RtoC delta) (vadd (vscal (RtoC (/ lmda)) r) g))) <=
  (1 - delta * mu * (2 - delta * (/ lmda + hi))) * nrm2 D.
Proof.
  intros lmda hi mu delta D r g Hl Hh Hm Hd HS Lr Lg Fr Fg Fm. set (a := / lmda) in *.
  assert (Ha : 0 < a) by (apply Rinv_0_lt_compat; auto).
  assert (LU : length (vadd (vscal (RtoC a) r) g) = length D) by (rewrite vadd_length; rewrite vscal_length; congruence).
  set (U := vadd (vscal (RtoC a) r) g) in *.
  assert (EU : nrm2 U = a ^ 2 * nrm2 r + 2 * (a * Re (cdot r g)) + nrm2 g).
  { unfold U. rewrite nrm2_vadd_expand by (rewrite vscal_length; congruence). rewrite nrm2_vscal_R, Re_cdot_vscal_l. lra. }
  assert (ED : Re (cdot U D) = a * Re (cdot r D) + Re (cdot g D)).
  { unfold U. rewrite cdot_vadd_l by (rewrite ?vscal_length; congruence). rewrite Re_plus, Re_cdot_vscal_l. lra. }
  assert (CS : 0 <= nrm2 (vsub (vscal (RtoC hi) r) g)) by apply nrm2_nonneg.
  rewrite nrm2_vsub_expand in CS by (rewrite vscal_length; congruence).
  rewrite nrm2_vscal_R, Re_cdot_vscal_r, (Re_cdot_sym g r) in CS.
  rewrite nrm2_vsub_expand by (rewrite vscal_length; congruence). rewrite nrm2_vscal_R, Re_cdot_vscal_l.
  assert (Nr := nrm2_nonneg r). assert (Ng := nrm2_nonneg g). assert (ND := nrm2_nonneg D).
  (* hi |U|^2 <= hi (a + hi) <U, D> *)
  assert (CU : nrm2 U <= (a + hi) * Re (cdot U D)).
  { apply (Rmult_le_reg_l hi); [auto|].
    assert (X1 : hi * nrm2 U <= (a + hi) * (hi * (a * nrm2 r) + nrm2 g)).
    { rewrite EU. assert (0 <= a * (hi ^ 2 * nrm2 r - 2 * (hi * Re (cdot r g)) + nrm2 g)) by (apply Rmult_le_pos; lra). nra. }
    assert (X2 : hi * (a * nrm2 r) + nrm2 g <= hi * Re (cdot U D)).
    { rewrite ED. assert (hi * (a * nrm2 r) <= hi * (a * Re (cdot r D))) by (repeat apply Rmult_le_compat_l; lra). lra. }
    assert (X3 : (a + hi) * (hi * (a * nrm2 r) + nrm2 g) <= (a + hi) * (hi * Re (cdot U D))) by (apply Rmult_le_compat_l; lra). lra. }
  assert (PD : mu * nrm2 D <= Re (cdot U D)).
  { rewrite ED. assert (0 <= a * Re (cdot r D)) by (apply Rmult_le_pos; lra). lra. }
  assert (Y1 : delta ^ 2 * nrm2 U <= delta ^ 2 * ((a + hi) * Re (cdot U D))) by (apply Rmult_le_compat_l; [apply pow2_ge_0|lra]).
  assert (Y2 : 0 <= delta * (2 - delta * (a + hi))) by (apply Rmult_le_pos; lra).
  assert (Y3 : delta * (2 - delta * (a + hi)) * (mu * nrm2 D) <= delta * (2 - delta * (a + hi)) * Re (cdot U D)) by (apply Rmult_le_compat_l; lra).
  nra.
Qed.
