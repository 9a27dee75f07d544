(** Vocabulary for the theorems about prior.py. *)
From Coq Require Import List ZArith Lia Bool Reals Lra.
From Coquelicot Require Import Coquelicot.
From Verif Require Import PyBase CVec Utils UtilsSpec.
Import ListNotations.
Open Scope R_scope.

(** T0 * ||.||_1 , the penalty of a scalar threshold *)
Definition l1_penalty (t : R) (u : vec) : R := t * l1norm u.

(** lexicographic order on complex numbers *)
Definition clex_lt (a b : C) : Prop := fst a < fst b \/ (fst a = fst b /\ snd a < snd b).
(** [k] is the first position where the window g is largest among 0..n-1 *)
Definition is_first_max (g : nat -> C) (n k : nat) : Prop :=
  (k < n)%nat /\ (forall i, (i < n)%nat -> ~ clex_lt (g k) (g i)) /\ (forall i, (i < k)%nat -> clex_lt (g i) (g k)).

(** area-and-power weight at colatitude row t of a map of band limit b with
    constant [c]: 2 pi^2 c / (power * number of samples) * sin theta_t *)
Definition power_weight (b : nat) (c power : R) (t : nat) : R :=
  2 * PI ^ 2 * c / (power * INR (b * (2 * b - 1))) * sin (INR (2 * t + 1) * PI / INR (2 * b - 1)).
(** a flattened map of band limit b whose value in row t is [f t] *)
Definition is_row_map (b : nat) (f : nat -> R) (w : list R) : Prop :=
  length w = (b * (2 * b - 1))%nat /\
  forall t p, (t < b)%nat -> (p < 2 * b - 1)%nat -> nth (t * (2 * b - 1) + p) w 0 = f t.
