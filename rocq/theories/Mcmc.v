(** The numerical parts of /repo/pxmcmc/mcmc.py, and the concrete instance of
    the operations that the sampler loops (Sampler.v) call.

    Scalars of the log posterior are complex numbers (np.vdot of complex data is
    complex); a comparison of complex numbers is numpy's lexicographic one.
    Arithmetic is exact. *)
From Coq Require Import List ZArith Lia Bool Reals Lra String.
From Coquelicot Require Import Coquelicot.
From Verif Require Import PyBase CVec Thresh Utils Prior Forward Sampler.
Import ListNotations.
Open Scope R_scope.

(** what a sampler reads of its prior object *)
Record prior_obj := mkPrior { pr_prior : vec -> res R; pr_proxf : vec -> res vec }.

(** numerical attributes copied from PxMCMCParams (mcmc.py:34-43) that do not
    change; delta is part of the sampler state *)
Record numparams := mkNum { n_lmda : R; n_mu : R; n_s : Z; n_complex : bool }.

Section Num.
Context {G : Type}.
(** the random generator: [randn n], [laplace.rvs(size=n)], [np.random.rand()] *)
Record rng := mkRng {
  g_randn : nat -> G -> list R * G;
  g_laplace : nat -> G -> list R * G;
  g_rand : G -> R * G }.

Variable R0 : rng.
Variable f : forward_op.
Variable pr : prior_obj.
Variable q : numparams.

(** logpi, mcmc.py:71-82 *)
Definition logpi (X preds : vec) : res (C * C * C) :=
  let* diff := np_sub (d_val (fo_data f)) preds in
  let* wd := np_dot (fo_invcov f) diff in
  let* L2 := np_vdot diff wd in
  let* p := pr_prior pr X in
  Ok ((RtoC (- n_mu q * p) - L2)%C, L2, RtoC p).

(** _gradlogpi, mcmc.py:84-89; division of an array by lmda = 0 (inf) is not
    modelled *)
Definition gradlogpi (X : vec) (preds : option vec) : res vec :=
  let* px := pr_proxf pr X in
  let* d := np_sub X px in
  let gradf := vscal (RtoC (/ n_lmda q)) d in
  let* preds := match preds with Some p => Ok p | None => fo_forward f X end in
  let* gradg := fo_gradg f preds in
  np_sub (vopp gradf) gradg.

(** the argument of run: None, a numpy array (shape and elements) or anything else *)
Inductive start_point := StartNone | StartArray (shape : list nat) (buf : vec) | StartOther.

(** a complex vector from real and imaginary draws: [a + b * 1j] *)
Definition vcomplex (a b : list R) : vec := map2 (fun x y => (RtoC x + RtoC y * Ci)%C) a b.

(** n draws, plus n imaginary ones if complex *)
Definition draw (f : nat -> G -> list R * G) (cplx : bool) (n : nat) (g : G) : vec * G :=
  let (a, g1) := f n g in
  if cplx then let (b, g2) := f n g1 in (vcomplex a b, g2) else (map RtoC a, g1).

(** _initial_sample, mcmc.py:97-109 (110-111 are in Sampler.initial_sample) *)
Definition choose_start (st : start_point) (g : G) : res vec * G :=
  match st with
  | StartNone =>
      match fo_nparams f with
      | None => (Raise AttributeError, g)
      | Some n => let (X, g') := draw (g_laplace R0) (n_complex q) n g in (Ok X, g')
      end
  | StartArray shape buf =>
      if negb (Nat.eqb (List.length shape) 1) then (Raise TypeError, g)
      else match fo_nparams f with
           | None => (Raise AttributeError, g)
           | Some n => if Nat.eqb (List.length buf) n then (Ok buf, g) else (Raise ValueError, g)
           end
  | StartOther => (Raise TypeError, g)
  end.

(** MYULA.chain_step, mcmc.py:185-201 *)
Definition chain_step (delta : R) (X proxf gradg : vec) (g : G) : res vec * G :=
  match fo_nparams f with
  | None => (Raise AttributeError, g)
  | Some n =>
      let (w, g') := draw (g_randn R0) (n_complex q) n g in
      ((if Req_EM_T (n_lmda q) 0 then Raise ZeroDivisionError else
        let* a := np_add (vscal (RtoC (1 - delta / n_lmda q)) X) (vscal (RtoC (delta / n_lmda q)) proxf) in
        let* b := np_sub a (vscal (RtoC delta) gradg) in
        np_add b (vscal (RtoC (sqrt (2 * delta))) w)), g')
  end.

(** calc_logtransition, mcmc.py:281-289 *)
Definition logtransition (delta : R) (X1 X2 proxf gradg : vec) : res C :=
  let* d := np_sub X1 proxf in
  let* gl := np_sub (vopp (vscal (RtoC (/ n_lmda q)) d)) gradg in
  let* e := np_sub X2 X1 in
  let* r := np_sub e (vscal (RtoC (delta / 2)) gl) in
  let s := csum (map (fun z => z * z)%C r) in
  Ok (RtoC (- (1 / 2 * delta)) * (s * s))%C.

(** _tune_delta, mcmc.py:277-279 *)
Definition tuned (delta : R) (acc i : Z) : R :=
  let d := delta * (1 + (IZR acc - 5 / 10) / Rpower (IZR (i + 1)) (75 / 100)) in
  Rmin (Rmax d (n_lmda q * (1 / 100000000))) (n_lmda q / 2).

(** np.log(np.random.rand()); log 0 = -inf is not modelled *)
Definition logrand (g : G) : C * G := let (u, g') := g_rand R0 g in (RtoC (ln u), g').

(** ** SKROCK coefficients, mcmc.py:303-306 and 370-383 *)

Definition eta : R := 5 / 100.
Definition omega_0 : R := 1 + eta / (IZR (n_s q) * IZR (n_s q)).
Definition omega_1 : res R :=
  if (n_s q =? 0)%Z then Raise ZeroDivisionError else
  let* a := chebyshev1 omega_0 (n_s q) in
  let* b := cheb1der omega_0 (n_s q) in
  if Req_EM_T b 0 then Raise ZeroDivisionError else Ok (a / b).

(** (mus[j], nus[j], ks[j]).  Entry 0 of the arrays stays 0 (np.zeros), and
    ks[j] = 1 - nus[0] for j >= 2 *)
Definition coef (j : nat) : res (R * R * R) :=
  let* w1 := omega_1 in
  match j with
  | O => Ok (0, 0, 0)
  | S O => Ok (w1 / omega_0, IZR (n_s q) * w1 / 2, IZR (n_s q) * w1 / omega_0)
  | _ =>
      let* a := chebyshev1 omega_0 (Z.of_nat j - 1) in
      let* b := chebyshev1 w1 (Z.of_nat j) in
      if Req_EM_T b 0 then Raise ZeroDivisionError else
      let cheb_ratio := a / b in
      Ok (2 * w1 * cheb_ratio, 2 * omega_0 * cheb_ratio, 1 - 0)
  end.
(** SKROCK.__init__: all coefficients up to s are computed (range(2, s+1)) *)
Definition skrock_init : res (list (R * R * R)) :=
  if (n_s q =? 0)%Z then Raise ZeroDivisionError else
  rseq (map coef (seq 0 (Z.to_nat (n_s q) + 1))).

(** _K_recursion, mcmc.py:349-368, on the stage number *)
Fixpoint K_recursion (delta : R) (X : vec) (s : nat) (Z : vec) : res vec :=
  match s with
  | O => Ok X
  | S s1 =>
      match s1 with
      | O =>
          let* c := coef 1 in let '(mu, nu, k) := c in
          let* y := np_add X (vscal (RtoC (nu * sqrt (2 * delta))) Z) in
          let* gr := gradlogpi y None in
          let* a := np_add X (vscal (RtoC (mu * delta)) gr) in
          np_add a (vscal (RtoC (k * sqrt (2 * delta))) Z)
      | S s2 =>
          let* c := coef s in let '(mu, nu, k) := c in
          let* K1 := K_recursion delta X s1 Z in
          let* gr := gradlogpi K1 None in
          let* a := np_add (vscal (RtoC (mu * delta)) gr) (vscal (RtoC nu) K1) in
          let* K2 := K_recursion delta X s2 Z in
          np_sub (vshift (RtoC k) a) K2
      end
  end.

(** SKROCK.chain_step, mcmc.py:338-347; randn(len(X)).  self.s >= 1 after
    SKROCK.__init__ *)
Definition skrock_step (delta : R) (X : vec) (g : G) : res vec * G :=
  let (Z, g') := draw (g_randn R0) (n_complex q) (List.length X) g in
  (K_recursion delta X (Z.to_nat (n_s q)) Z, g').

(** ** storing into the tracking arrays *)

(** [a[j] = x] for a row of n entries: equal length, or length 1 broadcast *)
Definition store_row (n : nat) (cast : C -> C) (x : vec) : res vec :=
  if Nat.eqb (List.length x) n then Ok (map cast x)
  else match x with [z] => Ok (repeat (cast z) n) | _ => Raise ValueError end.
(** a complex value stored into a float array loses its imaginary part
    (ComplexWarning) *)
Definition to_float (z : C) : C := RtoC (Re z).

Definition num_of (o : option nat) : nat := match o with Some n => n | None => O end.

(** ** the instance *)
Definition mcmc_ops : ops vec vec C R G start_point := {|
  o_init := choose_start;
  o_forward := fo_forward f;
  o_gradg := fo_gradg f;
  o_proxf := pr_proxf pr;
  o_logpi := logpi;
  o_step := chain_step;
  o_skstep := skrock_step;
  o_logtrans := logtransition;
  o_logrand := logrand;
  o_kadd := Cplus;
  o_ksub := Cminus;
  o_kltb := clex_ltb;
  o_tune := tuned;
  o_rowV := store_row (num_of (fo_nparams f)) (if n_complex q then fun z => z else to_float);
  o_rowD := store_row (List.length (d_val (fo_data f))) to_float;
  o_rowK := to_float;
  o_zeroV := vzero (num_of (fo_nparams f));
  o_zeroD := vzero (List.length (d_val (fo_data f)));
  o_zeroK := RtoC 0 |}.
End Num.
Arguments rng : clear implicits.
