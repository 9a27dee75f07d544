(** Vocabulary for linear operators between complex vectors: totality,
    linearity, adjointness.  Independent of the model. *)
From Coq Require Import List ZArith Lia Bool Reals Lra.
From Coquelicot Require Import Coquelicot.
From Verif Require Import PyBase CVec ThreshProof.
Import ListNotations.
Open Scope R_scope.

(** [f] takes every vector of length n, without error, to one of length m *)
Definition maps (f : vec -> res vec) (n m : nat) : Prop :=
  forall x, length x = n -> exists y, f x = Ok y /\ length y = m.
(** complex linear *)
Definition linear (f : vec -> res vec) (n : nat) : Prop :=
  forall x y c fx fy, length x = n -> length y = n -> f x = Ok fx -> f y = Ok fy ->
  f (vadd x (vscal c y)) = Ok (vadd fx (vscal c fy)).
(** [g] is the adjoint of [f]: <y, f x> = <g y, x> *)
Definition adjoint_pair (f g : vec -> res vec) (n m : nat) : Prop :=
  maps f n m /\ maps g m n /\
  forall x y fx gy, length x = n -> length y = m -> f x = Ok fx -> g y = Ok gy -> cdot y fx = cdot gy x.
(** [g] undoes [f] *)
Definition left_inverse (g f : vec -> res vec) (n : nat) : Prop :=
  forall x fx, length x = n -> f x = Ok fx -> g fx = Ok x.

Lemma cdot_zero_eq : forall a b, length a = length b ->
  (forall z, length z = length a -> cdot z a = cdot z b) -> a = b.
Proof.
  intros a b L H. apply vsub_zero_eq; auto.
  assert (E : cdot (vsub a b) (vsub a b) = RtoC 0).
  { rewrite cdot_vsub_r; rewrite ?vsub_length; auto. rewrite H by (apply vsub_length; auto). ring. }
  rewrite cdot_self in E. apply RtoC_inj in E. exact E.
Qed.
Lemma adjoint_swap : forall f g n m, adjoint_pair f g n m -> adjoint_pair g f m n.
Proof.
  intros f g n m [F [G A]]. split; [auto|split; [auto|]]. intros y x gy fx Hy Hx Ey Ex.
  rewrite <- (cdot_conj gy x), <- (cdot_conj y fx). f_equal. symmetry. eapply A; eauto.
Qed.
Lemma maps_len : forall f n m x y, maps f n m -> length x = n -> f x = Ok y -> length y = m.
Proof. intros f n m x y M H E. destruct (M x H) as [z [E' L]]. congruence. Qed.
(** an operator that has an adjoint is linear *)
Lemma adjoint_linear : forall f g n m, adjoint_pair f g n m -> linear f n.
Proof.
  intros f g n m [F [G A]] x y c fx fy Hx Hy Ex Ey.
  assert (Lx := maps_len _ _ _ _ _ F Hx Ex). assert (Ly := maps_len _ _ _ _ _ F Hy Ey).
  assert (LC : length (vadd x (vscal c y)) = n) by (rewrite vadd_length; auto; rewrite vscal_length; congruence).
  destruct (F _ LC) as [w [Ew Lw]]. rewrite Ew. f_equal.
  apply cdot_zero_eq; [rewrite vadd_length; rewrite ?vscal_length; congruence|].
  intros z Lz. destruct (G z ltac:(congruence)) as [gz [Ez Lgz]].
  rewrite (A (vadd x (vscal c y)) z w gz LC) by (auto; congruence).
  rewrite !cdot_vadd_r by (rewrite ?vscal_length; lia). rewrite !cdot_vscal_r.
  rewrite (A x z fx gz), (A y z fy gz) by (auto; congruence). reflexivity.
Qed.
(** the adjoint is unique *)
Lemma adjoint_unique : forall f g h n m, adjoint_pair f g n m -> adjoint_pair f h n m ->
  forall y, length y = m -> g y = h y.
Proof.
  intros f g h n m [F [G A]] [_ [H B]] y Hy. destruct (G y Hy) as [gy [Eg Lg]]. destruct (H y Hy) as [hy [Eh Lh]].
  rewrite Eg, Eh. f_equal. apply cdot_zero_eq; [congruence|]. intros z Lz.
  destruct (F z ltac:(congruence)) as [fz [Ef Lf]].
  rewrite <- (cdot_conj gy z), <- (cdot_conj hy z).
  rewrite <- (A z y fz gy), <- (B z y fz hy) by (auto; congruence). reflexivity.
Qed.
(** composition of adjoint pairs *)
Lemma adjoint_compose : forall f g f' g' n m k, adjoint_pair f g n m -> adjoint_pair f' g' m k ->
  adjoint_pair (fun x => let* y := f x in f' y) (fun z => let* y := g' z in g y) n k.
Proof.
  intros f g f' g' n m k [F [G A]] [F' [G' A']]. split; [|split].
  - intros x Hx. destruct (F x Hx) as [y [E L]]. rewrite E. simpl. auto.
  - intros z Hz. destruct (G' z Hz) as [y [E L]]. rewrite E. simpl. auto.
  - intros x z fx gz Hx Hz Ex Ez. destruct (F x Hx) as [y [Ey Ly]]. destruct (G' z Hz) as [w [Ew Lw]].
    rewrite Ey in Ex. rewrite Ew in Ez. simpl in Ex, Ez.
    rewrite (A' y z fx w Ly Hz Ex Ew). apply (A x w y gz); auto.
Qed.
Lemma linear_sub : forall f n x y fx fy, linear f n -> length x = n -> length y = n ->
  f x = Ok fx -> f y = Ok fy -> f (vsub x y) = Ok (vsub fx fy).
Proof.
  intros f n x y fx fy H Hx Hy Ex Ey. specialize (H x y (RtoC (-1)) fx fy Hx Hy Ex Ey).
  assert (V : forall a b, vadd a (vscal (RtoC (-1)) b) = vsub a b).
  { induction a; destruct b; simpl; auto. unfold vadd, vsub, vscal in *. simpl. f_equal; [cplx|apply IHa]. }
  rewrite !V in H. exact H.
Qed.
Lemma linear_add : forall f n x y fx fy, linear f n -> length x = n -> length y = n ->
  f x = Ok fx -> f y = Ok fy -> f (vadd x y) = Ok (vadd fx fy).
Proof.
  intros f n x y fx fy H Hx Hy Ex Ey. specialize (H x y (RtoC 1) fx fy Hx Hy Ex Ey).
  assert (V : forall b, vscal (RtoC 1) b = b).
  { intros; unfold vscal. rewrite <- (map_id b) at 2. apply map_ext; intros; ring. }
  rewrite !V in H. exact H.
Qed.
(** multiplication by a matrix and by its conjugate transpose *)
Lemma np_dot_adjoint : forall A, adjoint_pair (np_dot A) (np_dot (getH A)) (m_cols A) (m_rows A).
Proof.
  intros A. split; [|split].
  - intros x H. unfold np_dot. rewrite H, Nat.eqb_refl. eexists; split; [reflexivity|]. apply matvec_length.
  - intros x H. unfold np_dot. simpl. rewrite H, Nat.eqb_refl. eexists; split; [reflexivity|]. apply matvec_length.
  - intros x y fx gy Hx Hy Ex Ey. unfold np_dot in *. simpl in *. rewrite Hx, Nat.eqb_refl in Ex. rewrite Hy, Nat.eqb_refl in Ey.
    injection Ex as <-. injection Ey as <-. apply matvec_adjoint; auto.
Qed.
