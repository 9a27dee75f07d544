(** What soft and hard should compute, independently of how they do it. *)
From Coq Require Import List ZArith Lia Bool Reals Lra.
From Coquelicot Require Import Coquelicot.
From Verif Require Import PyBase CVec RSort Thresh.
Import ListNotations.
Open Scope R_scope.

(** [T] stands for the list [Tl] of [n] per-component thresholds *)
Definition thresholds (T : thr) (n : nat) (Tl : list R) : Prop :=
  length Tl = n /\
  match T with
  | TScal t => Tl = repeat t n
  | TVec ts => ts = Tl \/ (exists t, ts = [t] /\ Tl = repeat t n)
  end.

(** weighted l1 norm  sum_i T_i |u_i| *)
Definition wl1 (Tl : list R) (u : vec) : R := rsum (map2 (fun t z => t * Cmod z) Tl u).

(** 1/2 ||u - X||^2 + g(u) *)
Definition prox_objective (g : vec -> R) (X u : vec) : R := 1 / 2 * nrm2 (vsub u X) + g u.

(** [s] is the proximal point of [g] at [X]: the unique minimiser of
    1/2||u-X||^2 + g(u) over complex vectors of the length of X, with the
    quadratic growth that convexity of g gives. *)
Definition is_prox (g : vec -> R) (X s : vec) : Prop :=
  length s = length X /\
  forall u, length u = length X ->
    prox_objective g X s + 1 / 2 * nrm2 (vsub u s) <= prox_objective g X u.

(** uniqueness in the plain sense *)
Definition unique_minimiser (g : vec -> R) (X s : vec) : Prop :=
  length s = length X /\
  (forall u, length u = length X -> prox_objective g X s <= prox_objective g X u) /\
  (forall u, length u = length X -> prox_objective g X u <= prox_objective g X s -> u = s).

(** one component of soft thresholding *)
Definition soft1 (z : C) (t : R) : C :=
  if Rle_dec (Cmod z) t then RtoC 0
  else if Req_EM_T (Cmod z) 0 then RtoC 0
  else (RtoC ((Cmod z - t) / Cmod z) * z)%C.

(** [r] keeps the entries of [X] of modulus at least [v] and zeroes the others *)
Definition keeps_from (v : R) (X r : vec) : Prop :=
  length r = length X /\
  forall i, (i < length X)%nat ->
    (v <= Cmod (nth i X (RtoC 0)) -> nth i r (RtoC 0) = nth i X (RtoC 0)) /\
    (Cmod (nth i X (RtoC 0)) < v -> nth i r (RtoC 0) = RtoC 0).
