(** Vocabulary for C74: the acceptance rule of PxMALA on a Gaussian target. *)
From Coq Require Import List ZArith Reals.
From Coquelicot Require Import Coquelicot.
From Verif Require Import PyBase CVec Forward Prior Mcmc.
Import ListNotations.
Open Scope R_scope.

(** squared distance of two real vectors *)
Fixpoint dist2 (x y : list R) : R :=
  match x, y with a :: x, b :: y => (a - b) ^ 2 + dist2 x y | _, _ => 0 end.

(** a real vector as an array *)
Definition arr (x : list R) : vec := map RtoC x.

(** n parameters without regulariser; at every real sample x the data term has
    gradient w (x - c) and the log posterior is e - w |x - c|^2 *)
Definition well (f : forward_op) (pr : prior_obj) (q : numparams) (n : nat) (w : R) (c : list R) : Prop :=
  fo_nparams f = Some n /\ length c = n /\
  exists e, forall x, length x = n -> exists d l2 p,
    fo_forward f (arr x) = Ok d /\ pr_proxf pr (arr x) = Ok (arr x) /\
    fo_gradg f d = Ok (map (fun p => RtoC (w * (fst p - snd p))) (combine x c)) /\
    logpi f pr q (arr x) d = Ok (RtoC (e - w * dist2 x c), l2, p).

(** the log ratio that PxMALA uses between x and y is
    w (|y-c|^2 - |x-c|^2) (excess - 1) *)
Definition excess (delta w : R) (c x y : list R) : R :=
  delta ^ 2 / 2 * (1 - delta * w / 4) *
  (2 * (1 - delta * w / 2) * dist2 x y + (delta * w / 2) ^ 2 * (dist2 x c + dist2 y c)).

(** centre of the proposal of MYULA and PxMALA from x *)
Definition pulled (delta w : R) (c x : list R) : vec :=
  map (fun p => RtoC (fst p - delta * (w * (fst p - snd p)))) (combine x c).

(** share of the squared distance to the centre that a step without noise removes *)
Definition approach (delta w : R) : R := delta * w * (2 - delta * w).

(** a start too far away for a step size, for random numbers within bounds:
    normal vectors of squared length at most k, uniform numbers at least u *)
Definition too_far (delta w k u : R) (c x : list R) : Prop :=
  16 * delta * k <= approach delta w ^ 2 * dist2 x c /\
  16 <= delta ^ 2 * (delta * w) ^ 2 * (1 - delta * w / 4) * dist2 x c /\
  - ln u <= w * approach delta w / 4 * dist2 x c.
