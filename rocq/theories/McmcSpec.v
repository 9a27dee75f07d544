(** Vocabulary for the theorems about the numerical part of the samplers and
    the forward operator.  It mentions vectors, matrices and operators only. *)
From Coq Require Import List ZArith Lia Bool Reals Lra.
From Coquelicot Require Import Coquelicot.
From Verif Require Import PyBase CVec.
Import ListNotations.
Open Scope R_scope.

(** the allowed band of step sizes *)
Definition in_band (lmda d : R) : Prop := lmda / 10 ^ 8 <= d <= lmda / 2.

(** Hermitian square matrix of size n *)
Definition hermitian (W : cmat) (n : nat) : Prop :=
  m_rows W = n /\ m_cols W = n /\
  forall i j, (i < n)%nat -> (j < n)%nat -> m_ent W i j = Cconj (m_ent W j i).
(** diagonal square matrix with the given diagonal *)
Definition is_diagonal (W : cmat) (d : vec) : Prop :=
  m_rows W = length d /\ m_cols W = length d /\
  forall i j, (i < length d)%nat -> (j < length d)%nat ->
    m_ent W i j = if Nat.eqb i j then nth i d (RtoC 0) else RtoC 0.
(** d^H W d *)
Definition quadform (W : cmat) (d : vec) : C :=
  csum (map (fun i => csum (map (fun j =>
    Cconj (nth i d (RtoC 0)) * m_ent W i j * nth j d (RtoC 0))%C (seq 0 (length d)))) (seq 0 (length d))).

(** sum of |d_i|^2 / s_i^2 *)
Definition chi2 (s : list R) (d : vec) : R := rsum (map2 (fun a z => (Cmod z) ^ 2 / a ^ 2) s d).

(** [e] is the value at [x] of the Moreau-Yosida envelope of [g]:
    the attained minimum over u of  g(u) + ||u - x||^2 / (2 lmda) *)
Definition is_envelope (g : vec -> R) (lmda : R) (x : vec) (e : R) : Prop :=
  (exists u, length u = length x /\ e = g u + nrm2 (vsub u x) / (2 * lmda)) /\
  (forall u, length u = length x -> e <= g u + nrm2 (vsub u x) / (2 * lmda)).
(** [grad] is the gradient at [x] of the real function [E] (given as a relation)
    on complex vectors seen as R^(2n): first order expansion with a remainder
    between 0 and c ||h||^2 *)
Definition is_gradient (E : vec -> R -> Prop) (c : R) (x grad : vec) : Prop :=
  length grad = length x /\
  forall h e e', length h = length x -> E x e -> E (vadd x h) e' ->
    0 <= e' - e - Re (cdot grad h) <= c * nrm2 h.

(** log density, up to a constant, at [y] of the Gaussian with mean [m] and
    covariance 2*delta*I *)
Definition log_gauss (delta : R) (m y : vec) : R := - nrm2 (vsub y m) / (4 * delta).

(** Metropolis-Hastings acceptance probability from logs *)
Definition accept_prob (logalpha : R) : R := Rmin 1 (exp logalpha).

(** One adaptation step: move [d] up (accepted, a = 1) or down (rejected, a = 0)
    by half of (i+1)^(-3/4) of itself, then clip to the band. *)
Definition adapted (lmda d : R) (a i : nat) : R :=
  let d' := d + d * (INR a - 1 / 2) * Rpower (INR i + 1) (- (3 / 4)) in
  if Rle_dec d' (lmda / 10 ^ 8) then Rmin (lmda / 10 ^ 8) (lmda / 2)
  else if Rle_dec (lmda / 2) d' then lmda / 2 else d'.

(** What deltas_trace must look like after the accept/reject history [accs]. *)
Definition tuned_history (lmda d0 : R) (accs : list Z) (ds : list R) : Prop :=
  length ds = length accs /\
  forall i, (i < length ds)%nat ->
    let prev := nth i (d0 :: ds) 0 in
    let d := nth i ds 0 in
    in_band lmda d /\
    (nth i accs 2%Z = 1%Z \/ nth i accs 2%Z = 0%Z) /\
    d = adapted lmda prev (Z.to_nat (nth i accs 2%Z)) i /\
    (in_band lmda prev ->
       (nth i accs 2%Z = 1%Z -> prev <= d) /\ (nth i accs 2%Z = 0%Z -> d <= prev) /\
       Rabs (d - prev) <= lmda / 4 * Rpower (INR (i + 1)) (- (3 / 4))).

(** componentwise square, reciprocal of the square *)
Definition inv_sq (z : C) : C := (RtoC 1 / (z * z))%C.
