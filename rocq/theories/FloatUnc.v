(** uncertainty.py, and hard, norm and snr of utils.py, in floating point (the
    floats and the arithmetic of Ieee.v: any rounding).  numpy's quantile is
    transcribed from its source (1.24.4, the version of poetry.lock, method
    "linear"): lib/function_base.py, _quantile_is_valid, _quantile, _get_indexes,
    _get_gamma, _lerp.  np.sort and partition put NaN last.  Simplifications:
    those of Ieee.v; the number of samples is converted to a float without
    rounding; wavelet_credible_interval_range is not repeated here. *)
From Coq Require Import List ZArith Bool Reals.
From Verif Require Import PyBase RSort Thresh Ieee FloatOps.
Import ListNotations.
Open Scope R_scope.

(** the order of np.sort: NaN after everything else *)
Definition f_before (a b : float) : bool := match b with NaN => true | _ => fleb a b end.
Fixpoint f_insert (a : float) (l : fvec) : fvec :=
  match l with
  | [] => [a]
  | b :: l' => if f_before a b then a :: l else b :: f_insert a l'
  end.
Definition f_sort (l : fvec) : fvec := fold_right f_insert [] l.

Section Unc.
Variable rnd : R -> float.
Notation "a +. b" := (fadd rnd a b) (at level 50, left associativity).
Notation "a -. b" := (fsub rnd a b) (at level 50, left associativity).
Notation "a *. b" := (fmul rnd a b) (at level 40, left associativity).

(** _lerp(a, b, t): from the side of the nearer end *)
Definition f_lerp (a b t : float) : float :=
  let diff := b -. a in
  if fleb (Fin (1 / 2)) t then b -. diff *. (Fin 1 -. t) else a +. diff *. t.

(** _get_indexes for n samples: the last one (index -1) from n - 1 on and for
    NaN, the first one below 0 *)
Definition f_indexes (n : nat) (v : float) : Z * Z :=
  if fleb (Fin (INR (n - 1))) v then (-1, -1)%Z
  else if fltb v (Fin 0) then (0, 0)%Z
  else match v with Fin r => (Int_part r, Int_part r + 1)%Z | _ => (-1, -1)%Z end.

(** [np.quantile(a, q)], q one number *)
Definition f_valid (q : float) : bool := fleb (Fin 0) q && fleb q (Fin 1).
Definition f_is_nan (a : float) : bool := match a with NaN => true | _ => false end.
Definition f_quantile (a : fvec) (q : float) : res float :=
  if f_valid q then
    let n := length a in
    let s := f_sort a in
    let v := Fin (INR (n - 1)) *. q in
    let (i, j) := f_indexes n v in
    let* last := py_index s (-1) in
    let* previous := py_index s i in
    let* next := py_index s j in
    let gamma := v -. Fin (IZR i) in
    Ok (if f_is_nan last then NaN else f_lerp previous next gamma)
  else Raise ValueError.

(** chains: rows of [cols] floats; [np.quantile(chain, (q1, q2), axis=0)] *)
Definition f_column (j : nat) (rows : list fvec) : fvec := map (fun r => nth j r NaN) rows.
Definition f_quantiles (rows : list fvec) (cols : nat) (q1 q2 : float) : res (fvec * fvec) :=
  if f_valid q1 && f_valid q2 then
    match rows with
    | [] => Raise IndexError
    | _ => let* a := rseq (map (fun j => f_quantile (f_column j rows) q1) (seq 0 cols)) in
           let* b := rseq (map (fun j => f_quantile (f_column j rows) q2) (seq 0 cols)) in
           Ok (a, b)
    end
  else Raise ValueError.
(** credible_interval_range, uncertainty.py:7-16 *)
Definition f_range (rows : list fvec) (cols : nat) (alpha : float) : res fvec :=
  let half := fdiv rnd alpha (Fin 2) in
  let* q := f_quantiles rows cols half (Fin 1 -. half) in
  Ok (map (fun p => snd p -. fst p) (combine (fst q) (snd q))).
(** credible_region_threshold, uncertainty.py:43-51 *)
Definition f_region (logpis : fvec) (alpha : float) : res float := f_quantile logpis (Fin 1 -. alpha).
(** in_credible_region, uncertainty.py:54-56 *)
Definition f_in_region (logpi threshold : float) : bool := fleb logpi threshold.

(** hard, utils.py:70-81 (the array is overwritten); T a number *)
Definition f_hard (X : fvec) (T : R) : res fvec :=
  match rnd (T * INR (length X)) with
  | Fin r =>
      let* thresh_val := py_index (f_sort (map fabs X)) (- Rtrunc r) in
      Ok (map (fun x => if fltb (fabs x) thresh_val then Fin 0 else x) X)
  | NaN => Raise ValueError
  | _ => Raise (OpError 0) (* OverflowError *)
  end.

(** norm and snr, utils.py:302-317; np.linalg.norm is the square root of the dot
    product, np.log10 has the special values of np.log *)
Definition f_norm (X : fvec) : float := fsqrt rnd (fdot rnd X X).
Definition flog10 (a : float) : float :=
  match a with
  | Fin r => match total_order_T r 0 with
             | inleft (left _) => NaN
             | inleft (right _) => NInf
             | inright _ => rnd (ln r / ln 10)
             end
  | PInf => PInf
  | _ => NaN
  end.
Definition f_snr (signal noise : fvec) : float := Fin 20 *. flog10 (fdiv rnd (f_norm signal) (f_norm noise)).
End Unc.
