(** Proofs about the start point, the MYULA step, the acceptance ratio. *)
From Coq Require Import List ZArith Lia Bool Reals Lra Psatz String.
From Coquelicot Require Import Coquelicot.
From Verif Require Import PyBase PyBaseFacts Sampler SamplerSpec CVec RSort Thresh ThreshSpec ThreshProof Utils UtilsSpec
  OpSpec Prior PriorSpec PriorProof Forward Mcmc McmcSpec FwdProof.
Import ListNotations.
Open Scope R_scope.
Notation length := List.length.

Lemma vopp_length : forall x, length (vopp x) = length x.
Proof. intros; apply map_length. Qed.

(** the random generator returns as many numbers as asked *)
Definition good_rng {G} (R0 : rng G) : Prop :=
  forall n g, length (fst (g_randn R0 n g)) = n /\ length (fst (g_laplace R0 n g)) = n.

Lemma draw_length : forall {G} (h : nat -> G -> list R * G) c n g,
  (forall g, length (fst (h n g)) = n) -> length (fst (draw h c n g)) = n.
Proof.
  intros G h c n g H. unfold draw. assert (H1 := H g). destruct (h n g) as [a g1]. simpl in H1. destruct c.
  - assert (H2 := H g1). destruct (h n g1) as [b g2]. simpl in *. unfold vcomplex. rewrite map2_length; lia.
  - simpl. rewrite map_length. auto.
Qed.

(** the drawn vector, componentwise *)
Lemma draw_real : forall {G} (h : nat -> G -> list R * G) n g,
  draw h false n g = (map RtoC (fst (h n g)), snd (h n g)).
Proof. intros. unfold draw. destruct (h n g); reflexivity. Qed.
Lemma draw_complex : forall {G} (h : nat -> G -> list R * G) n g,
  let a := h n g in let b := h n (snd a) in
  draw h true n g = (map2 (fun x y => (x, y)) (fst a) (fst b), snd b).
Proof.
  intros G h n g. cbv zeta. unfold draw. destruct (h n g) as [a g1]. simpl. destruct (h n g1) as [b g2]. simpl.
  f_equal. unfold vcomplex. apply map2_ext. intros; unfold Ci; cplx.
Qed.

(** ** gradlogpi and the step *)

(** -(X - p)/lmda - g *)
Definition langevin_drift (lmda : R) (X p g : vec) : vec := vsub (vscal (RtoC (- / lmda)) (vsub X p)) g.

Lemma vopp_vscal : forall c x, vopp (vscal (RtoC c) x) = vscal (RtoC (- c)) x.
Proof. intros. unfold vopp, vscal. rewrite map_map. apply map_ext. intros; cplx. Qed.
Lemma drift_length : forall l X p g, length p = length X -> length g = length X -> length (langevin_drift l X p g) = length X.
Proof. intros. unfold langevin_drift. assert (length (vsub X p) = length X) by (apply vsub_length; auto).
  rewrite vsub_length; rewrite vscal_length; congruence. Qed.

Lemma gradlogpi_value : forall f pr q X d p g od, pr_proxf pr X = Ok p -> length p = length X ->
  (od = None /\ fo_forward f X = Ok d \/ od = Some d) ->
  fo_gradg f d = Ok g -> length g = length X ->
  gradlogpi f pr q X od = Ok (langevin_drift (n_lmda q) X p g).
Proof.
  intros f pr q X d p g od Ep Lp Eo Eg Lg. unfold gradlogpi. rewrite Ep. cbn [rbind]. rewrite np_sub_same by auto. cbn [rbind].
  assert (E : match od with Some p => Ok p | None => fo_forward f X end = Ok d) by (destruct Eo as [(-> & E) | ->]; auto).
  rewrite E. cbn [rbind]. rewrite Eg. cbn [rbind]. rewrite vopp_vscal.
  assert (length (vsub X p) = length X) by (apply vsub_length; auto).
  rewrite np_sub_same by (rewrite vscal_length; congruence). reflexivity.
Qed.

Lemma step_algebra : forall lmda delta X p g w, lmda <> 0 -> length p = length X -> length g = length X -> length w = length X ->
  vadd (vsub (vadd (vscal (RtoC (1 - delta / lmda)) X) (vscal (RtoC (delta / lmda)) p)) (vscal (RtoC delta) g))
       (vscal (RtoC (sqrt (2 * delta))) w) =
  vadd (vadd X (vscal (RtoC delta) (langevin_drift lmda X p g))) (vscal (RtoC (sqrt (2 * delta))) w).
Proof.
  intros lmda delta X p g w NZ. revert p g w.
  induction X as [|x X IH]; intros [|a p] [|b g] [|c w] Lp Lg Lw; simpl in *; try lia; auto.
  unfold langevin_drift, vadd, vsub, vscal in *. simpl. f_equal; [|apply IH; lia].
  f_equal. cplx; field; auto.
Qed.
Lemma chain_step_value : forall {G} (R0 : rng G) f q delta X p gr g n, fo_nparams f = Some n -> n_lmda q <> 0 ->
  good_rng R0 -> length X = n -> length p = n -> length gr = n ->
  chain_step R0 f q delta X p gr g =
  let (w, g') := draw (g_randn R0) (n_complex q) n g in
  (Ok (vadd (vadd X (vscal (RtoC delta) (langevin_drift (n_lmda q) X p gr))) (vscal (RtoC (sqrt (2 * delta))) w)), g').
Proof.
  intros G R0 f q delta X p gr g n EN NZ GR LX Lp Lg. unfold chain_step. rewrite EN.
  assert (Lw := draw_length (g_randn R0) (n_complex q) n g (fun g => proj1 (GR n g))).
  destruct (draw (g_randn R0) (n_complex q) n g) as [w g']. simpl in Lw. destruct (Req_EM_T (n_lmda q) 0); [contradiction|].
  f_equal. rewrite np_add_same by (rewrite !vscal_length; congruence). cbn [rbind].
  rewrite np_sub_same by (rewrite vadd_length; rewrite !vscal_length; congruence). cbn [rbind].
  rewrite np_add_same.
  - f_equal. apply step_algebra; congruence.
  - rewrite vsub_length; rewrite vadd_length; rewrite !vscal_length; congruence.
Qed.

(** ** Moreau-Yosida envelope *)

Lemma nrm2_sub_shift : forall u x h, length u = length x -> length h = length x ->
  nrm2 (vsub u (vadd x h)) = nrm2 (vsub u x) + 2 * Re (cdot (vsub x u) h) + nrm2 h.
Proof.
  intros u x. revert u. induction x as [|a x IH]; intros [|b u] [|c h] L1 L2; simpl in L1, L2; try lia.
  - unfold nrm2, cdot; simpl. unfold Re; simpl. ring.
  - unfold vsub, vadd in *. cbn [map2].
    assert (E : forall z (l : vec), nrm2 (z :: l) = Cmod z ^ 2 + nrm2 l) by reflexivity. rewrite !E, IH by lia.
    assert (E2 : forall a b (l m : vec), cdot (a :: l) (b :: m) = (Cconj a * b + cdot l m)%C) by reflexivity.
    rewrite E2, Re_plus, !Cmod_sq. destruct a, b, c; unfold Re; simpl. ring.
Qed.

Section Env.
Variables (g : vec -> R) (lmda : R).
Hypothesis LP : 0 < lmda.

(** prox of lmda*g, up to the scale of the objective *)
Lemma prox_envelope : forall x s, is_prox (fun u => lmda * g u) x s ->
  is_envelope g lmda x (g s + nrm2 (vsub s x) / (2 * lmda)).
Proof.
  intros x s (L & H). split; [eauto|]. intros u Lu. specialize (H u Lu). unfold prox_objective in H.
  assert (N := nrm2_nonneg (vsub u s)).
  apply (Rmult_le_reg_l lmda); [auto|]. field_simplify; lra.
Qed.
Lemma envelope_unique : forall x a b, is_envelope g lmda x a -> is_envelope g lmda x b -> a = b.
Proof. intros x a b ((u & Lu & Eu) & Ha) ((v & Lv & Ev) & Hb). specialize (Ha v Lv). specialize (Hb u Lu). lra. Qed.

Lemma envelope_gradient : (forall x, exists s, is_prox (fun u => lmda * g u) x s) ->
  forall x s, is_prox (fun u => lmda * g u) x s ->
  is_gradient (is_envelope g lmda) (/ (2 * lmda)) x (vscal (RtoC (/ lmda)) (vsub x s)).
Proof.
  intros EX x s P. assert (Ls := proj1 P). split; [rewrite vscal_length, vsub_length; auto|].
  intros h e e' Lh He He'.
  assert (Ee := envelope_unique _ _ _ He (prox_envelope _ _ P)).
  destruct (EX (vadd x h)) as (s' & P').
  assert (Lxh : length (vadd x h) = length x) by (apply vadd_length; auto).
  assert (Ls' : length s' = length x) by (destruct P' as (L & _); congruence).
  assert (Ee' := envelope_unique _ _ _ He' (prox_envelope _ _ P')).
  assert (U := proj2 He' s ltac:(congruence)). rewrite nrm2_sub_shift in U by congruence.
  rewrite cdot_vscal_l, Cconj_R, Re_scal.
  assert (IL : 0 < / lmda) by (apply Rinv_0_lt_compat; auto).
  assert (D2 : forall z, z / (2 * lmda) = z / 2 * / lmda) by (intros; field; lra).
  rewrite D2 in Ee, Ee'. rewrite !D2 in U. replace (/ (2 * lmda) * nrm2 h) with (nrm2 h / 2 * / lmda) by (field; lra).
  split; [|rewrite Ee; lra].
  (* lower bound *)
  destruct P as (_ & H). specialize (H s' Ls'). unfold prox_objective in H.
  rewrite nrm2_sub_shift in Ee' by congruence.
  assert (E1 : nrm2 (vsub (vsub s' s) h) = nrm2 (vsub s' s) - 2 * Re (cdot (vsub s' s) h) + nrm2 h).
  { assert (Q := nrm2_sub_shift (vsub s' s) (vzero (length x)) h).
    assert (Z1 : vadd (vzero (length x)) h = h).
    { rewrite <- Lh. clear. unfold vadd, vzero. induction h; simpl; f_equal; auto; ring. }
    assert (Z2 : vsub (vsub s' s) (vzero (length x)) = vsub s' s).
    { assert (Lz : length (vsub s' s) = length x) by (rewrite vsub_length; congruence). rewrite <- Lz. generalize (vsub s' s). clear.
      unfold vsub, vzero. induction l; simpl; f_equal; auto; ring. }
    rewrite Z1, Z2 in Q. rewrite Q by (unfold vzero; rewrite ?vsub_length; rewrite ?repeat_length; congruence).
    assert (Z3 : vsub (vzero (length x)) (vsub s' s) = vopp (vsub s' s)).
    { assert (Lz : length (vsub s' s) = length x) by (rewrite vsub_length; congruence). rewrite <- Lz. generalize (vsub s' s). clear.
      unfold vsub, vzero, vopp. induction l; simpl; f_equal; auto; ring. }
    rewrite Z3, Re_cdot_vopp_l. ring. }
  assert (N := nrm2_nonneg (vsub (vsub s' s) h)).
  assert (E2 : Re (cdot (vsub s' s) h) = Re (cdot (vsub x s) h) - Re (cdot (vsub x s') h)).
  { rewrite !cdot_vsub_l by congruence. rewrite !Re_minus. ring. }
  rewrite Ee', Ee.
  apply (Rmult_le_reg_l lmda); [auto|]. rewrite Rmult_0_r.
  replace (lmda * (g s' + (nrm2 (vsub s' x) + 2 * Re (cdot (vsub x s') h) + nrm2 h) / 2 * / lmda -
     (g s + nrm2 (vsub s x) / 2 * / lmda) - / lmda * Re (cdot (vsub x s) h)))
   with (lmda * g s' - lmda * g s + (nrm2 (vsub s' x) + 2 * Re (cdot (vsub x s') h) + nrm2 h) / 2 - nrm2 (vsub s x) / 2 - Re (cdot (vsub x s) h))
   by (field; lra).
  lra.
Qed.
End Env.
