(** The sphere, the MW sampling grid, band-limited functions and surface
    integrals: what the quadrature code is about. *)
From Coq Require Import List ZArith Lia Bool Reals Lra.
From Coquelicot Require Import Coquelicot.
From Verif Require Import CVec.
Import ListNotations.
Open Scope R_scope.

(** MW sampling (arXiv:1110.6298): L rings, 2L-1 points on each *)
Definition mw_theta (L t : nat) : R := INR (2 * t + 1) * PI / INR (2 * L - 1).
Definition mw_phi (L p : nat) : R := 2 * PI * INR p / INR (2 * L - 1).

(** a function on the sphere sampled on the grid, row-major *)
Definition mw_sample (f : R -> R -> C) (L : nat) : vec :=
  flat_map (fun t => map (fun p => f (mw_theta L t) (mw_phi L p)) (seq 0 (2 * L - 1))) (seq 0 L).

(** exp(i x) *)
Definition cexpi (x : R) : C := (cos x, sin x).

(** f(theta,phi) = g_0(theta) + sum over 0<|m|<L of g_m(theta) e^{i m phi},
    g_0 a polynomial of degree < L in cos(theta).  Every function band-limited
    at L (spanned by the Y_lm, l < L) has this form. *)
Definition band_limited (L : nat) (f : R -> R -> C) : Prop :=
  exists (c : nat -> C) (gp gm : nat -> R -> C), forall theta phi,
    f theta phi =
      (csum (map (fun k => c k * RtoC (cos theta ^ k)) (seq 0 L))
       + csum (map (fun m => gp m theta * cexpi (INR m * phi)
                             + gm m theta * cexpi (- (INR m * phi))) (seq 1 (L - 1))))%C.

(** integral of a complex function of a real variable *)
Definition is_CInt (f : R -> C) (a b : R) (v : C) : Prop :=
  is_RInt (fun x => Re (f x)) a b (Re v) /\ is_RInt (fun x => Im (f x)) a b (Im v).

(** [I] is the integral of [f] over the unit sphere *)
Definition is_sphere_integral (f : R -> R -> C) (I : C) : Prop :=
  exists inner : R -> C,
    (forall theta, 0 <= theta <= PI -> is_CInt (f theta) 0 (2 * PI) (inner theta)) /\
    is_CInt (fun theta => RtoC (sin theta) * inner theta)%C 0 PI I.

(** Legendre polynomials by Bonnet's recursion; the pair is (P_n, P_{n+1}) *)
Fixpoint legendre2 (n : nat) (x : R) : R * R :=
  match n with
  | O => (1, x)
  | S n' => let '(p, q) := legendre2 n' x in
            (q, (INR (2 * n + 1) * x * q - INR n * p) / INR (S n))
  end.
Definition legendre (n : nat) (x : R) : R := fst (legendre2 n x).

(** A finite spherical harmonic expansion with l < L:
    Y_l0 = N_l P_l(cos theta) and, for m > 0, Y_{l,+-m} = (function of theta)
    e^{+-i m phi}.  [N], [Qp], [Qm] are the normalisations and associated
    Legendre functions of whatever convention is in use. *)
Definition harmonic_expansion (L : nat) (N : nat -> R) (Qp Qm : nat -> nat -> R -> C)
  (a0 : nat -> C) (ap am : nat -> nat -> C) (theta phi : R) : C :=
  csum (map (fun l =>
    a0 l * RtoC (N l * legendre l (cos theta)) +
    csum (map (fun m => ap l m * (Qp l m theta * cexpi (INR m * phi))
                      + am l m * (Qm l m theta * cexpi (- (INR m * phi)))) (seq 1 l)))%C
    (seq 0 L)).
