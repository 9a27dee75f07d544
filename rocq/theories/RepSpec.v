(** Two ways to represent one sampling problem: exact floats and reals, and the
    model parameters in another order. *)
From Coq Require Import List ZArith Reals Permutation.
From Coquelicot Require Import Coquelicot.
From Verif Require Import PyBase CVec Forward Prior Mcmc Sampler ParamSpec Ieee.
Import ListNotations.
Open Scope R_scope.

(** ** exact floats *)

(** a vector of [n] real numbers in both models *)
Definition same_vec (n : nat) (x : fvec) (y : vec) : Prop :=
  exists v, List.length v = n /\ x = map Fin v /\ y = map RtoC v.
Definition same_num (k : float) (z : C) : Prop := exists r, k = Fin r /\ z = RtoC r.
(** a positive step size *)
Definition same_step (p : float) (d : R) : Prop := p = Fin d /\ 0 < d.
Definition same_start (n : nat) (i : option fvec) (j : start_point) : Prop :=
  match i, j with
  | None, StartNone => True
  | Some x, StartArray shape buf => shape = [n] /\ same_vec n x buf
  | _, _ => False
  end.

(** the same problem with [n] parameters and [m] data *)
Record same_problem (n m : nat) (f : fl_problem) (F : forward_op) (pr : prior_obj) : Prop := {
  sp_n : fp_nparams f = n; sp_n' : fo_nparams F = Some n;
  sp_data : same_vec m (fp_data f) (d_val (fo_data F));
  sp_cov : exists W : list (list (nat * R)), List.length W = m /\ List.Forall (List.Forall (fun p => (fst p < m)%nat)) W /\
    fp_invcov f = map (map (fun p => (fst p, Fin (snd p)))) W /\ m_rows (fo_invcov F) = m /\ m_cols (fo_invcov F) = m /\
    forall i j, (i < m)%nat -> (j < m)%nat -> m_ent (fo_invcov F) i j = RtoC (rsum (map snd (filter (fun p => Nat.eqb (fst p) j) (nth i W []))));
  sp_forward : forall x y, same_vec n x y -> rel_res (same_vec m) (fp_forward f x) (fo_forward F y);
  sp_gradg : forall x y, same_vec m x y -> rel_res (same_vec n) (fp_gradg f x) (fo_gradg F y);
  sp_proxf : forall x y, same_vec n x y -> rel_res (same_vec n) (fp_proxf f x) (pr_proxf pr y);
  sp_prior : forall x y, same_vec n x y -> rel_res (fun k r => k = Fin r) (fp_prior f x) (pr_prior pr y) }.

(** ** reordered parameters *)

(** entry [i] of the reordered vector is entry [sigma i] *)
Definition reorder (n : nat) (sigma : nat -> nat) {A} (z : A) (x : list A) : list A :=
  map (fun i => nth (sigma i) x z) (seq 0 n).
Definition is_permutation (n : nat) (sigma : nat -> nat) : Prop := Permutation (map sigma (seq 0 n)) (seq 0 n).

(** the second problem is the first one with the parameters in the order [sigma]:
    the operators are rewritten accordingly and the random vectors are reordered *)
Record reordered {G} (n : nat) (sigma : nat -> nat) (R0 R1 : rng G) (F F' : forward_op) (pr pr' : prior_obj) : Prop := {
  rd_perm : is_permutation n sigma;
  rd_n : fo_nparams F = Some n; rd_n' : fo_nparams F' = Some n;
  rd_data : fo_data F' = fo_data F; rd_cov : fo_invcov F' = fo_invcov F;
  rd_forward : forall x, List.length x = n -> fo_forward F' (reorder n sigma (RtoC 0) x) = fo_forward F x;
  rd_gradg : forall d, match fo_gradg F d with
             | Ok v => List.length v = n /\ fo_gradg F' d = Ok (reorder n sigma (RtoC 0) v)
             | Raise e => fo_gradg F' d = Raise e end;
  rd_proxf : forall x, List.length x = n ->
             match pr_proxf pr x with
             | Ok v => List.length v = n /\ pr_proxf pr' (reorder n sigma (RtoC 0) x) = Ok (reorder n sigma (RtoC 0) v)
             | Raise e => pr_proxf pr' (reorder n sigma (RtoC 0) x) = Raise e end;
  rd_prior : forall x, List.length x = n -> pr_prior pr' (reorder n sigma (RtoC 0) x) = pr_prior pr x;
  rd_len : forall g, List.length (fst (g_randn R0 n g)) = n /\ List.length (fst (g_laplace R0 n g)) = n;
  rd_randn : forall g, g_randn R1 n g = (reorder n sigma 0 (fst (g_randn R0 n g)), snd (g_randn R0 n g));
  rd_laplace : forall g, g_laplace R1 n g = (reorder n sigma 0 (fst (g_laplace R0 n g)), snd (g_laplace R0 n g));
  rd_rand : forall g, g_rand R1 g = g_rand R0 g }.

(** reordered vectors of [n] entries *)
Definition rv (n : nat) (sigma : nat -> nat) (x y : vec) : Prop := List.length x = n /\ y = reorder n sigma (RtoC 0) x.

(** the same start, reordered *)
Definition rstart (n : nat) (sigma : nat -> nat) (i j : start_point) : Prop :=
  match i, j with
  | StartNone, StartNone | StartOther, StartOther => True
  | StartArray s b, StartArray s' b' => s = s' /\ (List.length b = n /\ b' = reorder n sigma (RtoC 0) b \/ List.length b <> n /\ b' = b)
  | _, _ => False
  end.

