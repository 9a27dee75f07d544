(** Model of the thresholding functions of /repo/pxmcmc/utils.py: soft
    (lines 55-67), hard (70-81), _sign (84-88). *)
From Coq Require Import List ZArith Lia Bool Reals Lra.
From Coquelicot Require Import Coquelicot.
From Verif Require Import PyBase CVec RSort.
Import ListNotations.
Open Scope R_scope.

(** The threshold argument: a scalar or a 1-D array. *)
Inductive thr := TScal (t : R) | TVec (t : list R).

(** [f(a, T)] elementwise with numpy broadcasting *)
Definition thr_bin {A B} (f : A -> R -> B) (l : list A) (T : thr) : res (list B) :=
  match T with
  | TScal t => Ok (map (fun a => f a t) l)
  | TVec ts => np_bin f l ts
  end.

(** [x[mask] = v] with a boolean mask: the mask must have the shape of x. *)
Definition mask_assign {A} (x : list A) (mask : list bool) (v : A) : res (list A) :=
  if Nat.eqb (length x) (length mask) then Ok (map2 (fun a (b : bool) => if b then v else a) x mask)
  else Raise IndexError.

(** _sign, utils.py:84-88: entries of modulus 0 stay 0, others are divided by
    their modulus.  (z is modified in place; here only values matter, the
    aliasing is in Arrays.v.) *)
Definition sign_vec (z : vec) : vec :=
  let ab := vabs z in
  let z' := map2 (fun x a => if Reqb a 0 then RtoC 0 else x) z ab in
  let ab' := map (fun a => if Reqb a 0 then 1 else a) ab in
  map2 (fun x a => x / RtoC a)%C z' ab'.

(** soft, utils.py:55-67, for a 1-D array X:
    t = _sign(X) * (np.abs(X) - T);  t[np.abs(X) <= T] = 0 *)
Definition soft (X : vec) (T : thr) : res vec :=
  let* d := thr_bin Rminus (vabs X) T in
  let* t := np_mul (sign_vec X) (map RtoC d) in
  let* m := thr_bin Rleb (vabs X) T in
  mask_assign t m (RtoC 0).

(** Python [int(r)]: truncation towards zero *)
Definition Rtrunc (r : R) : Z := if Rle_dec 0 r then Int_part r else (- Int_part (- r))%Z.

(** hard, utils.py:70-81.  The returned array is X itself, overwritten
    (see Arrays.v). *)
Definition hard (X : vec) (T : R) : res vec :=
  let X_srt := rsort (vabs X) in
  let thresh_ind := Rtrunc (T * INR (length X)) in
  let* thresh_val := py_index X_srt (- thresh_ind) in
  mask_assign X (map (fun a => Rltb a thresh_val) (vabs X)) (RtoC 0).
