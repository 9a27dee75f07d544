(** Vocabulary for the measurement operators: vectors and lists only. *)
From Coq Require Import List ZArith Lia Bool Reals Lra.
From Coquelicot Require Import Coquelicot.
From Verif Require Import PyBase CVec.
Import ListNotations.
Open Scope R_scope.

(** the first n entries of x, followed by zeros if x is shorter *)
Definition pad_or_cut (n : nat) (x : vec) : vec := map (fun i => nth i x (RtoC 0)) (seq 0 n).

(** product of a matrix with a vector, entry by entry *)
Definition is_product (A : cmat) (x y : vec) : Prop :=
  length y = m_rows A /\
  forall i, (i < m_rows A)%nat ->
    nth i y (RtoC 0) = csum (map (fun j => m_ent A i j * nth j x (RtoC 0))%C (seq 0 (m_cols A))).

(** factor between convergence and shear at degree l *)
Definition shear_factor (l : nat) : R :=
  - sqrt ((INR l + 2) * (INR l - 1) / ((INR l + 1) * INR l)).
(** position of (l, m) in a harmonic vector *)
Definition lm_index (l m : Z) : nat := Z.to_nat (l * l + l + m).

(** positions of the set bits *)
Definition set_positions (bits : list bool) : list nat :=
  filter (fun i => nth i bits false) (seq 0 (length bits)).
(** position of p among the set positions *)
Definition rank (bits : list bool) (p : nat) : nat := length (filter (fun i => nth i bits false) (seq 0 p)).
