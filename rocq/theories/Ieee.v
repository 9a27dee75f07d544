(** The numerical parts of /repo/pxmcmc/mcmc.py in floating point, for real
    parameters and real data (complex=False).

    A float is a real number, plus or minus infinity, or NaN.  Every operation
    on real numbers rounds by an arbitrary function [rnd] that returns a number
    or an infinity: IEEE double with round-to-nearest is one such function, so
    are overflow and underflow.  The results on infinities and NaN are those of
    IEEE 754.  Simplifications: zeros have no sign (it would matter in a division
    by a zero array entry only), sums are taken from left to right (numpy may add
    pairwise), no fused operations.  The operators (forward, calc_gradg, proxf,
    prior) are arbitrary functions on floats. *)
From Coq Require Import List ZArith Bool Reals String.
From Verif Require Import PyBase Sampler.
Import ListNotations.
Open Scope R_scope.

Inductive float := Fin (r : R) | PInf | NInf | NaN.
Definition fvec := list float.

Section Arith.
Variable rnd : R -> float.

Definition fneg (a : float) : float :=
  match a with Fin r => Fin (- r) | PInf => NInf | NInf => PInf | NaN => NaN end.
Definition fadd (a b : float) : float :=
  match a, b with
  | NaN, _ | _, NaN => NaN
  | Fin x, Fin y => rnd (x + y)
  | PInf, NInf | NInf, PInf => NaN
  | PInf, _ | _, PInf => PInf
  | NInf, _ | _, NInf => NInf
  end.
Definition fsub (a b : float) : float := fadd a (fneg b).

(** an infinity of the sign of [r]; NaN for 0 *)
Definition finf (r : R) : float :=
  match total_order_T r 0 with
  | inleft (left _) => NInf
  | inleft (right _) => NaN
  | inright _ => PInf
  end.
Definition fmul (a b : float) : float :=
  match a, b with
  | NaN, _ | _, NaN => NaN
  | Fin x, Fin y => rnd (x * y)
  | Fin x, PInf | PInf, Fin x => finf x
  | Fin x, NInf | NInf, Fin x => fneg (finf x)
  | PInf, PInf | NInf, NInf => PInf
  | PInf, NInf | NInf, PInf => NInf
  end.
(** division of an array entry by a float; x/0 is an infinity of the sign of x *)
Definition fdiv (a b : float) : float :=
  match a, b with
  | NaN, _ | _, NaN => NaN
  | Fin x, Fin y => if Req_EM_T y 0 then finf x else rnd (x / y)
  | Fin _, _ => Fin 0
  | PInf, Fin y => if Rlt_dec y 0 then NInf else PInf
  | NInf, Fin y => if Rlt_dec y 0 then PInf else NInf
  | _, _ => NaN
  end.
(** [a < b]: false as soon as one is NaN *)
Definition fltb (a b : float) : bool :=
  match a, b with
  | NaN, _ | _, NaN => false
  | Fin x, Fin y => if Rlt_dec x y then true else false
  | NInf, NInf => false
  | NInf, _ => true
  | _, NInf => false
  | _, PInf => match a with PInf => false | _ => true end
  | PInf, _ => false
  end.
(** Python's max(a, b) keeps a unless b > a; min(a, b) keeps a unless b < a *)
Definition fmax (a b : float) : float := if fltb a b then b else a.
Definition fmin (a b : float) : float := if fltb b a then b else a.
Definition fln (a : float) : float :=
  match a with
  | Fin r => match total_order_T r 0 with
             | inleft (left _) => NaN
             | inleft (right _) => NInf
             | inright _ => rnd (ln r)
             end
  | PInf => PInf
  | _ => NaN
  end.
Definition fsqrt (a : float) : float :=
  match a with
  | Fin r => if Rlt_dec r 0 then NaN else rnd (sqrt r)
  | PInf => PInf
  | _ => NaN
  end.
Definition flit (r : R) : float := rnd r.
Definition fsum (l : fvec) : float := fold_left fadd l (Fin 0).

(** numpy arrays of one length; anything else is a ValueError (arrays of length
    1 are not broadcast) *)
Definition fzip (op : float -> float -> float) (a b : fvec) : res fvec :=
  if Nat.eqb (List.length a) (List.length b) then Ok (map (fun p => op (fst p) (snd p)) (combine a b)) else Raise ValueError.
Definition fscal (c : float) (a : fvec) : fvec := map (fmul c) a.
Definition fdot (a b : fvec) : float := fsum (map (fun p => fmul (fst p) (snd p)) (combine a b)).
(** a row of a sparse matrix times a vector *)
Definition fspdot (r : list (nat * float)) (v : fvec) : float :=
  fsum (map (fun p => fmul (snd p) (nth (fst p) v (Fin 0))) r).
End Arith.

Section Num.
Variable rnd : R -> float.
Notation "a +. b" := (fadd rnd a b) (at level 50, left associativity).
Notation "a -. b" := (fsub rnd a b) (at level 50, left associativity).
Notation "a *. b" := (fmul rnd a b) (at level 40, left associativity).
Notation "a /. b" := (fdiv rnd a b) (at level 40, left associativity).

Context {G : Type}.
(** normal and Laplace draws are numbers; np.random.rand() lies in [0,1) *)
Variable randn laplace : nat -> G -> list R * G.
Variable rand : G -> R * G.

(** the forward operator and the prior *)
Record fl_problem := mkFl {
  fp_nparams : nat;
  fp_data : fvec;
  fp_invcov : list (list (nat * float));   (* sparse: column and value of the stored entries of each row *)
  fp_forward : fvec -> res fvec;
  fp_gradg : fvec -> res fvec;
  fp_proxf : fvec -> res fvec;
  fp_prior : fvec -> res float }.
Variable f : fl_problem.
(** lmda, mu *)
Variable lmda mu : float.

(** invcov @ v, square and sparse: what is not stored is not multiplied, so that
    0 * inf and 0 * NaN do not arise off the diagonal of sparse.diags *)
Definition f_matvec (rows : list (list (nat * float))) (v : fvec) : res fvec :=
  if Nat.eqb (List.length rows) (List.length v) then Ok (map (fun r => fspdot rnd r v) rows)
  else Raise ValueError.

(** logpi, mcmc.py:71-82 *)
Definition f_logpi (X preds : fvec) : res (float * float * float) :=
  let* diff := fzip (fsub rnd) (fp_data f) preds in
  let* wd := f_matvec (fp_invcov f) diff in
  let* L2 := (if Nat.eqb (List.length diff) (List.length wd) then Ok (fdot rnd diff wd) else Raise ValueError) in
  let* p := fp_prior f X in
  Ok (fneg mu *. p -. L2, L2, p).

(** a float quotient of Python floats *)
Definition py_fdiv (a b : float) : res float :=
  match b with Fin y => if Req_EM_T y 0 then Raise ZeroDivisionError else Ok (a /. b) | _ => Ok (a /. b) end.

(** the start point: None or a one-dimensional array; its entries are not checked *)
Definition f_start (st : option fvec) (g : G) : res fvec * G :=
  match st with
  | None => let (a, g') := laplace (fp_nparams f) g in (Ok (map Fin a), g')
  | Some X => if Nat.eqb (List.length X) (fp_nparams f) then (Ok X, g) else (Raise ValueError, g)
  end.

(** MYULA.chain_step, mcmc.py:185-201:
    (1 - delta/lmda) * X + (delta/lmda) * proxf - delta * gradg + sqrt(2*delta) * w *)
Definition f_step (delta : float) (X proxf gradg : fvec) (g : G) : res fvec * G :=
  let (w, g') := randn (fp_nparams f) g in
  ((let* r := py_fdiv delta lmda in
    let* a := fzip (fadd rnd) (fscal rnd (Fin 1 -. r) X) (fscal rnd r proxf) in
    let* b := fzip (fsub rnd) a (fscal rnd delta gradg) in
    fzip (fadd rnd) b (fscal rnd (fsqrt rnd (Fin 2 *. delta)) (map Fin w))), g').

(** calc_logtransition, mcmc.py:281-289 *)
Definition f_logtrans (delta : float) (X1 X2 proxf gradg : fvec) : res float :=
  let* d := fzip (fsub rnd) X1 proxf in
  let* gl := fzip (fsub rnd) (map (fun x => fneg (x /. lmda)) d) gradg in
  let* e := fzip (fsub rnd) X2 X1 in
  let* r := fzip (fsub rnd) e (fscal rnd (delta /. Fin 2) gl) in
  let s := fsum rnd (map (fun x => x *. x) r) in
  Ok (fneg (Fin (1 / 2) *. delta) *. (s *. s)).

(** _tune_delta, mcmc.py:277-279 *)
Definition f_tuned (delta : float) (acc i : Z) : float :=
  let p := flit rnd (Rpower (IZR (i + 1)) (75 / 100)) in
  let d := delta *. (Fin 1 +. ((Fin (IZR acc) -. Fin (1 / 2)) /. p)) in
  fmin (fmax d (lmda *. flit rnd (1 / 100000000))) (lmda /. Fin 2).

(** np.log(np.random.rand()), mcmc.py:245 *)
Definition f_logrand (g : G) : float * G := let (u, g') := rand g in (fln rnd (Fin u), g').

(** a row of the chain or predictions array *)
Definition f_row (n : nat) (x : fvec) : res fvec :=
  if Nat.eqb (List.length x) n then Ok x
  else match x with [z] => Ok (repeat z n) | _ => Raise ValueError end.

(** the instance; the field of SKROCK is a placeholder, filled in FloatSk.v *)
Definition fl_ops : ops fvec fvec float float G (option fvec) := {|
  o_init := f_start;
  o_forward := fp_forward f;
  o_gradg := fp_gradg f;
  o_proxf := fp_proxf f;
  o_logpi := f_logpi;
  o_step := f_step;
  o_skstep := fun _ X g => (Ok X, g);
  o_logtrans := f_logtrans;
  o_logrand := f_logrand;
  o_kadd := fadd rnd;
  o_ksub := fsub rnd;
  o_kltb := fltb;
  o_tune := f_tuned;
  o_rowV := f_row (fp_nparams f);
  o_rowD := f_row (List.length (fp_data f));
  o_rowK := fun k => k;
  o_zeroV := repeat (Fin 0) (fp_nparams f);
  o_zeroD := repeat (Fin 0) (List.length (fp_data f));
  o_zeroK := Fin 0 |}.
End Num.
