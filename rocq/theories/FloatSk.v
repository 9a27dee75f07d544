(** SKROCK in floating point, real case: the Chebyshev polynomials
    (/repo/pxmcmc/utils.py:128-197), SKROCK.__init__, chain_step, _K_recursion and
    _recursion_coefs (/repo/pxmcmc/mcmc.py:302-306, 338-383) and _gradlogpi
    (mcmc.py:84-89).  Floats and simplifications as in Ieee.v; an int too large for
    a float (OverflowError in Python) is rounded like any number.  The coefficients
    are a function of the stage instead of arrays filled by __init__; that __init__
    evaluates all of them is f_skrock_init. *)
From Coq Require Import List ZArith Bool Reals.
From Verif Require Import PyBase Sampler Ieee.
Import ListNotations.
Open Scope R_scope.

Section Sk.
Variable rnd : R -> float.
Notation "a +. b" := (fadd rnd a b) (at level 50, left associativity).
Notation "a -. b" := (fsub rnd a b) (at level 50, left associativity).
Notation "a *. b" := (fmul rnd a b) (at level 40, left associativity).
Notation "a /. b" := (fdiv rnd a b) (at level 40, left associativity).

(** an int in a float operation *)
Definition f_int (z : Z) : float := flit rnd (IZR z).
(** chebyshev1 and chebyshev2, utils.py:144-151, 170-177, for order >= 0 *)
Fixpoint f_cheb1 (X : float) (n : nat) : float :=
  match n with
  | O => Fin 1
  | S O => X
  | S ((S m) as k) => Fin 2 *. X *. f_cheb1 X k -. f_cheb1 X m
  end.
Fixpoint f_cheb2 (X : float) (n : nat) : float :=
  match n with
  | O => Fin 1
  | S O => Fin 2 *. X
  | S ((S m) as k) => Fin 2 *. X *. f_cheb2 X k -. f_cheb2 X m
  end.
(** cheb1der, utils.py:192-197, for order >= 1 *)
Definition f_cheb1der (X : float) (n : nat) : float := f_int (Z.of_nat n) *. f_cheb2 X (n - 1).

(** self.s *)
Variable s : Z.
(** omega_0 and omega_1, mcmc.py:304-305.  [s = 0] divides by zero, [s < 0] raises
    in chebyshev1 *)
Definition f_omega_0 : float := Fin 1 +. (flit rnd (5 / 100) /. f_int (s * s)).
Definition f_omega_1 : res float :=
  if (s =? 0)%Z then Raise ZeroDivisionError
  else if (s <? 0)%Z then Raise ValueError
  else py_fdiv rnd (f_cheb1 f_omega_0 (Z.to_nat s)) (f_cheb1der f_omega_0 (Z.to_nat s)).
(** (mus[j], nus[j], ks[j]), mcmc.py:370-383 *)
Definition f_coef (j : nat) : res (float * float * float) :=
  let* w1 := f_omega_1 in
  match j with
  | O => Ok (Fin 0, Fin 0, Fin 0)
  | S O =>
      let* mu := py_fdiv rnd w1 f_omega_0 in
      let* k := py_fdiv rnd (f_int s *. w1) f_omega_0 in
      Ok (mu, f_int s *. w1 /. Fin 2, k)
  | _ =>
      let* c := py_fdiv rnd (f_cheb1 f_omega_0 (j - 1)) (f_cheb1 w1 j) in
      Ok (Fin 2 *. w1 *. c, Fin 2 *. f_omega_0 *. c, Fin 1 -. Fin 0)
  end.
(** SKROCK.__init__: all coefficients up to s *)
Definition f_skrock_init : res (list (float * float * float)) :=
  if (s =? 0)%Z then Raise ZeroDivisionError
  else if (s <? 0)%Z then Raise ValueError
  else rseq (map f_coef (seq 0 (Z.to_nat s + 1))).

Context {G : Type}.
Variable randn laplace : nat -> G -> list R * G.
Variable rand : G -> R * G.
Variable f : fl_problem.
Variable lmda mu : float.

(** _gradlogpi(X), mcmc.py:84-89: (X - proxf(X)) / lmda is an array operation, no
    ZeroDivisionError *)
Definition f_gradlogpi (X : fvec) : res fvec :=
  let* p := fp_proxf f X in
  let* d := fzip (fsub rnd) X p in
  let* preds := fp_forward f X in
  let* g := fp_gradg f preds in
  fzip (fsub rnd) (map (fun x => fneg (x /. lmda)) d) g.

(** _K_recursion, mcmc.py:349-368 *)
Fixpoint f_K (delta : float) (X : fvec) (j : nat) (Z : fvec) : res fvec :=
  match j with
  | O => Ok X
  | S j1 =>
      match j1 with
      | O =>
          let* c := f_coef 1 in let '(mu, nu, k) := c in
          let r := fsqrt rnd (Fin 2 *. delta) in
          let* y := fzip (fadd rnd) X (fscal rnd (nu *. r) Z) in
          let* g := f_gradlogpi y in
          let* a := fzip (fadd rnd) X (fscal rnd (mu *. delta) g) in
          fzip (fadd rnd) a (fscal rnd (k *. r) Z)
      | S j2 =>
          let* c := f_coef j in let '(mu, nu, k) := c in
          let* K1 := f_K delta X j1 Z in
          let* g := f_gradlogpi K1 in
          let* a := fzip (fadd rnd) (fscal rnd (mu *. delta) g) (fscal rnd nu K1) in
          let* K2 := f_K delta X j2 Z in
          fzip (fsub rnd) (map (fun x => x +. k) a) K2
      end
  end.
(** chain_step, mcmc.py:338-347 *)
Definition f_skstep (delta : float) (X : fvec) (g : G) : res fvec * G :=
  let (Z, g') := randn (List.length X) g in (f_K delta X (Z.to_nat s) (map Fin Z), g').

(** the operations of Ieee.v with the SKROCK step *)
Definition fl_sk_ops : ops fvec fvec float float G (option fvec) :=
  let o := fl_ops rnd randn laplace rand f lmda mu in {|
  o_init := o_init o; o_forward := o_forward o; o_gradg := o_gradg o; o_proxf := o_proxf o; o_logpi := o_logpi o; o_step := o_step o;
  o_skstep := f_skstep;
  o_logtrans := o_logtrans o; o_logrand := o_logrand o; o_kadd := o_kadd o; o_ksub := o_ksub o; o_kltb := o_kltb o; o_tune := o_tune o;
  o_rowV := o_rowV o; o_rowD := o_rowD o; o_rowK := o_rowK o; o_zeroV := o_zeroV o; o_zeroD := o_zeroD o; o_zeroK := o_zeroK o |}.
End Sk.
