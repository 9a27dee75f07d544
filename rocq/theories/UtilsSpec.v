(** Vocabulary for the theorems about utils.py. *)
From Coq Require Import List ZArith Lia Bool Reals Lra.
From Coquelicot Require Import Coquelicot.
From Verif Require Import PyBase CVec Utils.
Import ListNotations.
Open Scope R_scope.

(** a well-formed array: the buffer has the size of the shape *)
Definition wf_nda (a : nda) : Prop :=
  match a with Arr1 _ => True | Arr2 r c buf => length buf = (r * c)%nat end.

(** [b] is the smallest band limit above which the window [g] vanishes:
    g(l)=0 for all l >= b, and g(b-1) <> 0 *)
Definition is_bandlimit (g : nat -> C) (b : nat) : Prop :=
  (1 <= b)%nat /\ g (b - 1)%nat <> RtoC 0 /\ (forall l, (b <= l)%nat -> g l = RtoC 0).

(** a list as a window that is 0 beyond its end *)
Definition window (v : vec) (l : nat) : C := nth l v (RtoC 0).
(** the m = 0 harmonics, index l^2 + l, of a wavelet's l < L *)
Definition window_m0 (L : nat) (psi : vec) (l : nat) : C :=
  if Nat.ltb l L then nth (l ^ 2 + l) psi (RtoC 0) else RtoC 0.

(** sample positions on the sphere (MW sampling, arXiv:1110.6298) *)
Definition mw_thetas (L : nat) : list R := map (fun t => INR (2 * t + 1) * PI / INR (2 * L - 1)) (seq 0 L).
Definition mw_phis (L : nat) : list R := map (fun p => 2 * PI * INR p / INR (2 * L - 1)) (seq 0 (2 * L - 1)).

(** latitude strips: theta runs from [hi_edge] of the row above (0 for the
    first row) to the sample position *)
Definition strip_top (L t : nat) : R :=
  match t with O => 0 | S t' => INR (2 * t' + 1) * PI / INR (2 * L - 1) end.
Definition strip_bottom (L t : nat) : R := INR (2 * t + 1) * PI / INR (2 * L - 1).

(** Sky directions as unit vectors; (ra, dec) in degrees. *)
Definition radians (d : R) : R := d * PI / 180.
(** sine of the latitude above a great circle with pole (ra0, dec0) *)
Definition sin_lat (ra0 dec0 ra dec : R) : R :=
  sin (radians dec0) * sin (radians dec) + cos (radians dec0) * cos (radians dec) * cos (radians (ra - ra0)).
(** galactic latitude in degrees, for a galactic pole (ra0, dec0) *)
Definition galactic_latitude (ra0 dec0 ra dec : R) : R := degrees (asin (sin_lat ra0 dec0 ra dec)).
