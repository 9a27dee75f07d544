(** Vocabulary for the theorems about the experiment scripts. *)
From Coq Require Import List ZArith Lia Bool Reals Lra String.
From Coquelicot Require Import Coquelicot.
From Verif Require Import PyBase CVec UtilsSpec.
Import ListNotations.
Open Scope R_scope.
Notation length := List.length.

(** [sub] occurs in [s] *)
Definition contains (sub s : string) : Prop := exists a b, s = (a ++ sub ++ b)%string.
(** [s] ends with [suf] *)
Definition ends_with (suf s : string) : Prop := exists a, s = (a ++ suf)%string.

(** the Python index [k] of an axis of length n denotes position i *)
Definition at_index (n : nat) (k : Z) (i : nat) : Prop :=
  (i < n)%nat /\ (k = Z.of_nat i \/ k = Z.of_nat i - Z.of_nat n)%Z.

(** area of a pixel of row t on the unit sphere, MW sampling *)
Definition patch_area (L t : nat) : R :=
  2 * PI / INR (2 * L - 1) * (cos (strip_top L t) - cos (strip_bottom L t)).

(** entry (i, j) of a table given by its rows *)
Definition cell (m : list (list R)) (i j : nat) : R := nth j (nth i m []) 0.
(** n rows of c numbers *)
Definition table (m : list (list R)) (n c : nat) : Prop :=
  length m = n /\ forall row, In row m -> length row = c.

(** angles of the 100 x 100 grid over Africa, in degrees *)
Definition africa_colatitude (a : nat) : R := 60 + 60 * INR a / 99.
Definition africa_longitude (b : nat) : R := -30 + 60 * INR b / 99.
(** pixel (i, j) is hit by a point of the grid; [theta_index], [phi_index] give
    the pixel's indices for an angle in radians *)
Definition in_africa (theta_index phi_index : R -> res Z) (L i j : nat) : Prop :=
  exists a b k l, (a < 100)%nat /\ (b < 100)%nat /\
    theta_index (africa_colatitude a * PI / 180) = Ok k /\ phi_index (africa_longitude b * PI / 180) = Ok l /\
    at_index L k i /\ at_index (2 * L - 1) l j.
