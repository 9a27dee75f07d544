(** Property theorems about the quadrature on the sphere
    (/repo/pxmcmc/utils.py:249-299; model Quad.v, vocabulary QuadSpec.v). *)
From Coq Require Import List ZArith Lia Bool Reals Lra.
From Coquelicot Require Import Coquelicot.
From Verif Require Import PyBase CVec ThreshProof TrigSum Quad QuadSpec QuadProof QuadMain.
Import ListNotations.
Open Scope R_scope.

(** ** C24: the quadrature is exact for band-limited functions *)
Theorem C24_quadrature_exact : forall L f, (1 <= L)%nat -> band_limited L f ->
  exists I, s2_integrate (mw_sample f L) (Z.of_nat L) = Ok I /\ is_sphere_integral f I.
Proof. exact quad_exact. Qed.
Print Assumptions C24_quadrature_exact.

(** in particular every finite spherical harmonic expansion with l < L *)
Theorem C24_harmonics_exact : forall L N Qp Qm a0 ap am, (1 <= L)%nat ->
  let f := harmonic_expansion L N Qp Qm a0 ap am in
  exists I, s2_integrate (mw_sample f L) (Z.of_nat L) = Ok I /\ is_sphere_integral f I.
Proof. intros; apply quad_exact; [assumption|apply harmonic_band_limited]. Qed.
Print Assumptions C24_harmonics_exact.

Theorem C24_weights_positive : forall L Q, (1 <= L)%nat -> mw_map_weights (Z.of_nat L) = Ok Q ->
  length Q = (L * (2 * L - 1))%nat /\ (forall q, In q Q -> 0 < q).
Proof. exact weights_positive. Qed.
Print Assumptions C24_weights_positive.

Theorem C24_weights_sum : forall L Q, (1 <= L)%nat -> mw_map_weights (Z.of_nat L) = Ok Q -> rsum Q = 4 * PI.
Proof. exact weights_sum. Qed.
Print Assumptions C24_weights_sum.

(** weights exist exactly for L >= 1 *)
Theorem C24_weights_exist : forall L,
  ((exists Q, mw_map_weights L = Ok Q) <-> (1 <= L)%Z) /\
  ((L < 1)%Z -> mw_map_weights L = Raise ValueError).
Proof. intros L; split; [apply weights_ok_iff|apply weights_error]. Qed.
Print Assumptions C24_weights_exist.

(** the integral is unique, so the theorem pins the value *)
Theorem C24_integral_unique : forall f I J, is_sphere_integral f I -> is_sphere_integral f J -> I = J.
Proof.
  assert (U : forall g a b u v, is_CInt g a b u -> is_CInt g a b v -> u = v).
  { intros g a b u v [A B] [A' B']. apply C_ext.
    - change (Re u = Re v). rewrite <- (is_RInt_unique _ _ _ _ A). apply is_RInt_unique; auto.
    - change (Im u = Im v). rewrite <- (is_RInt_unique _ _ _ _ B). apply is_RInt_unique; auto. }
  intros f I J [g [A B]] [h [A' B']].
  apply (U (fun theta => RtoC (sin theta) * g theta)%C 0 PI); auto.
  destruct B' as [B1 B2]. split.
  - eapply is_RInt_ext; [|apply B1]. intros x Hx. rewrite Rmin_left, Rmax_right in Hx by (pose proof PI_RGT_0; lra).
    cbv beta. rewrite (U (f x) 0 (2 * PI) (g x) (h x)) by (try apply A; try apply A'; lra). reflexivity.
  - eapply is_RInt_ext; [|apply B2]. intros x Hx. rewrite Rmin_left, Rmax_right in Hx by (pose proof PI_RGT_0; lra).
    cbv beta. rewrite (U (f x) 0 (2 * PI) (g x) (h x)) by (try apply A; try apply A'; lra). reflexivity.
Qed.
Print Assumptions C24_integral_unique.

(** [np.sum] of a wrongly sized map: broadcasting or an error *)
Theorem C24_wrong_size : forall L f, (2 <= L)%nat -> length f <> (L * (2 * L - 1))%nat -> length f <> 1%nat ->
  s2_integrate f (Z.of_nat L) = Raise ValueError.
Proof.
  intros L f HL H1 H2. unfold s2_integrate. rewrite map_weights_closed by lia. simpl rbind.
  unfold np_mul. assert (2 <= L * (2 * L - 1))%nat by nia.
  rewrite np_bin_raise; auto; rewrite map_length, flat_repeat_length, seq_length; lia.
Qed.
Print Assumptions C24_wrong_size.

(** cos^2 theta with L = 3: the integral is 4 pi/3 *)
Definition cos2 (theta phi : R) : C := RtoC (cos theta ^ 2).
Lemma cos2_band_limited : band_limited 3 cos2.
Proof.
  exists (fun k => if Nat.eqb k 2 then RtoC 1 else RtoC 0), (fun _ _ => RtoC 0), (fun _ _ => RtoC 0).
  intros th ph. unfold cos2. cbn -[pow Cmult]. ring.
Qed.
Example C24_case : exists I, s2_integrate (mw_sample cos2 3) 3 = Ok I /\ is_sphere_integral cos2 I /\ I = RtoC (4 * PI / 3).
Proof.
  destruct (C24_quadrature_exact 3 cos2 ltac:(lia) cos2_band_limited) as [I [A B]].
  exists I. split; [exact A|split; [exact B|]]. apply (C24_integral_unique cos2); auto.
  exists (fun th => RtoC (2 * PI) * RtoC (cos th ^ 2))%C. split.
  - intros th _. unfold cos2. replace (2 * PI) with (2 * PI - 0) at 2 by ring. apply is_CInt_const.
  - apply is_CInt_ext with (fun th => RtoC (2 * PI * (cos th ^ 2 * sin th))).
    { intros; rewrite !RtoC_mult; ring. }
    apply is_CInt_real. replace (4 * PI / 3) with (2 * PI * (2 / 3)) by field.
    apply (is_RInt_scal (fun th => cos th ^ 2 * sin th)).
    replace (2 / 3) with (minus ((fun x => - (cos x ^ 3) / 3) PI) ((fun x => - (cos x ^ 3) / 3) 0)).
    2:{ unfold minus, plus, opp; simpl. rewrite cos_PI, cos_0. field. }
    apply (is_RInt_derive (fun x => - (cos x ^ 3) / 3)).
    + intros x _. auto_derive; auto. field.
    + intros x _. apply (ex_derive_continuous (fun x => cos x ^ 2 * sin x)). auto_derive; auto.
Qed.

(** a single ring: L = 1, one sample at the south pole, weight 4 pi *)
Example C24_case_L1 : exists Q, mw_map_weights 1 = Ok Q /\ Q = [4 * PI].
Proof.
  destruct (proj2 (weights_ok_iff 1%Z) ltac:(lia)) as [Q H]. exists Q; split; auto.
  destruct (weights_positive 1 Q ltac:(lia) H) as [L _].
  assert (S := weights_sum 1 Q ltac:(lia) H).
  destruct Q as [|q [|]]; try discriminate. simpl in S. f_equal. lra.
Qed.
