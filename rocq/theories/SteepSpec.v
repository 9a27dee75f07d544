(** Vocabulary for C76: PxMALA where the gradient is large. *)
From Coq Require Import List Reals.
From Coquelicot Require Import Coquelicot.
From Verif Require Import PyBase CVec Forward Prior Mcmc.
Import ListNotations.
Open Scope R_scope.

(** Euclidean length of an array *)
Definition size (x : vec) : R := sqrt (fold_right Rplus 0 (map (fun z => Cmod z ^ 2) x)).
(** no imaginary parts *)
Definition reals (x : vec) : Prop := forall z, In z x -> Im z = 0.

(** a regulariser on n parameters whose proximal map moves no sample by more
    than B and whose penalty changes by at most P per unit of distance *)
Definition tame (pr : prior_obj) (n : nat) (B P : R) : Prop :=
  (forall x p, length x = n -> pr_proxf pr x = Ok p -> size (map2 Cminus x p) <= B) /\
  (forall x y a b, length x = n -> length y = n -> pr_prior pr x = Ok a -> pr_prior pr y = Ok b ->
     Rabs (a - b) <= P * size (map2 Cminus x y)).

(** how far a step size stays below the limit 2 / (1/lambda + hi) of C56 *)
Definition margin (lmda hi delta : R) : R := 1 - delta * (/ lmda + hi) / 2.

(** a gradient of length gamma too large for a step size, for random numbers
    within bounds: normal vectors of length at most k, uniform numbers at least u *)
Definition too_steep (lmda mu hi B P delta k u gamma : R) : Prop :=
  let t := delta * margin lmda hi delta in
  1 <= gamma /\ 6 * sqrt (2 * delta) * k <= t * gamma /\
  256 * (Rabs mu * P + 2 * B / lmda + 2) <= t ^ 4 * gamma ^ 2 /\
  - (64 * ln u) < delta * t ^ 4 * gamma ^ 4.

(** C77: a gradient too large for every step size that tuning can set *)
Definition steep_for_all (lmda mu hi B P k u gamma : R) : Prop :=
  forall d, lmda / 10 ^ 8 <= d <= lmda / 2 -> too_steep lmda mu hi B P d k u gamma.
