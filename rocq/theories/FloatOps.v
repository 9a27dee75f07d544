(** The operators of a sampler in floating point, real case: soft and _sign
    (/repo/pxmcmc/utils.py:55-67, 84-88), L1 in the synthesis setting
    (/repo/pxmcmc/prior.py:21-50), PathIntegral (/repo/pxmcmc/measurements.py:69-83)
    and ForwardOperator with an error vector, in the analysis setting and without
    a transform (/repo/pxmcmc/forward.py:21-69, 80-86).

    Floats as in Ieee.v.  Sparse matrices are lists of rows, a row the list of
    column and value of its stored entries (scipy's CSR); products run over the
    stored entries only.  Simplifications: those of Ieee.v; column indices are in
    range; thresholds are scalars or arrays of the length of X. *)
From Coq Require Import List ZArith Bool Reals.
From Verif Require Import PyBase Ieee.
Import ListNotations.
Open Scope R_scope.

Section Ops.
Variable rnd : R -> float.

(** np.abs *)
Definition fabs (a : float) : float :=
  match a with Fin r => Fin (Rabs r) | PInf | NInf => PInf | NaN => NaN end.
(** [a == 0] and [a <= b]; false with NaN *)
Definition fzerob (a : float) : bool :=
  match a with Fin r => if Req_EM_T r 0 then true else false | _ => false end.
Definition fleb (a b : float) : bool :=
  match a, b with
  | NaN, _ | _, NaN => false
  | Fin x, Fin y => if Rle_dec x y then true else false
  | NInf, _ => true
  | _, PInf => true
  | _, _ => false
  end.

(** _sign, utils.py:84-88, one entry *)
Definition f_sign1 (z : float) : float :=
  let a := fabs z in
  let z := if fzerob a then Fin 0 else z in
  let a := if fzerob a then Fin 1 else a in
  fdiv rnd z a.
(** soft, utils.py:64-67, one entry with its threshold *)
Definition f_soft1 (t z : float) : float :=
  if fleb (fabs z) t then Fin 0 else fmul rnd (f_sign1 z) (fsub rnd (fabs z) t).
Inductive fthreshold := FScal (t : float) | FArr (t : fvec).
Definition f_soft (X : fvec) (T : fthreshold) : res fvec :=
  match T with
  | FScal t => Ok (map (f_soft1 t) X)
  | FArr l => fzip (fun z t => f_soft1 t z) X l
  end.
(** L1.prior, prior.py:35: Python's sum, from the left *)
Definition f_l1 (X : fvec) : float := fsum rnd (map fabs X).

(** PathIntegral.forward and .adjoint, measurements.py:75-83 *)
Definition f_path_forward (npix : nat) (rows : list (list (nat * float))) (X : fvec) : res fvec :=
  if Nat.eqb (List.length X) npix then Ok (map (fun r => fspdot rnd r X) rows) else Raise AssertionError.
(** the rows of path_matrix.getH(): row j lists the paths k that store pixel j *)
Definition f_adjoint_rows (npix : nat) (rows : list (list (nat * float))) : list (list (nat * float)) :=
  map (fun j => concat (map (fun kr => map (fun p => (fst kr, snd p)) (filter (fun p => Nat.eqb (fst p) j) (snd kr)))
                            (combine (seq 0 (List.length rows)) rows)))
      (seq 0 npix).
Definition f_path_adjoint (npix : nat) (rows : list (list (nat * float))) (Y : fvec) : res fvec :=
  if Nat.eqb (List.length Y) (List.length rows) then Ok (map (fun r => fspdot rnd r Y) (f_adjoint_rows npix rows))
  else Raise AssertionError.

(** 1 / sig_d**2, forward.py:80, 86 *)
Definition f_weights (sig : fvec) : fvec := map (fun s => fdiv rnd (Fin 1) (fmul rnd s s)) sig.
(** invcov @ csr_matrix(v).T, forward.py:68: zeros of the vector and of the
    diagonal are not stored *)
Definition f_weigh (ws v : fvec) : res fvec :=
  fzip (fun w d => if fzerob w || fzerob d then Fin 0 else fadd rnd (Fin 0) (fmul rnd w d)) ws v.
(** _gradg_analysis, forward.py:66-69 *)
Definition f_gradg (npix : nat) (rows : list (list (nat * float))) (data ws : fvec) (preds : fvec) : res fvec :=
  let* d := fzip (fsub rnd) preds data in
  let* wd := f_weigh ws d in
  f_path_adjoint npix rows wd.

(** ForwardOperator(data, sig_d, "analysis", None, PathIntegral(rows), npix) with
    the prior L1("synthesis", ..., T) *)
Definition f_paths (npix : nat) (rows : list (list (nat * float))) (data ws : fvec) (T : fthreshold) : fl_problem :=
  mkFl npix data (map (fun p => [p]) (combine (seq 0 (List.length ws)) ws))
    (f_path_forward npix rows) (f_gradg npix rows data ws) (fun X => f_soft X T) (fun X => Ok (f_l1 X)).
End Ops.
