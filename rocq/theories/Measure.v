(** Model of /repo/pxmcmc/measurements.py: Identity (38-56), PathIntegral
    (59-83), WeakLensingHarmonic (86-182), WeakLensing (185-304).
    Arithmetic is exact.  pyssht's four spherical harmonic transforms are
    arbitrary functions (record [ssht]).  The warning for L > 1024
    (measurements.py:110-111) is not modelled. *)
From Coq Require Import List ZArith Lia Bool Reals Lra.
From Coquelicot Require Import Coquelicot.
From Verif Require Import PyBase CVec.
Import ListNotations.
Open Scope R_scope.

(** ** Identity, measurements.py:43-56; [sparse.eye(ndata, npix)] *)
Definition Identity_forward (ndata npix : nat) (X : vec) : res vec :=
  if Nat.eqb (length X) npix then np_dot (eye ndata npix) X else Raise AssertionError.
Definition Identity_adjoint (ndata npix : nat) (Y : vec) : res vec :=
  if Nat.eqb (length Y) ndata then np_dot (getH (eye ndata npix)) Y else Raise AssertionError.

(** ** PathIntegral, measurements.py:69-83 *)
Definition Path_forward (P : cmat) (X : vec) : res vec :=
  if Nat.eqb (length X) (m_cols P) then np_dot P X else Raise AssertionError.
Definition Path_adjoint (P : cmat) (Y : vec) : res vec :=
  if Nat.eqb (length Y) (m_rows P) then np_dot (getH P) Y else Raise AssertionError.

(** ** WeakLensingHarmonic *)

(** one assignment [k[index] = ...; index += 1], measurements.py:157-159 *)
Definition kernel_step (s : res (list R * Z)) (l : Z) : res (list R * Z) :=
  let* st := s in
  let '(k, index) := st in
  let el := IZR l in
  let* k' := py_setitem k index (-1 * sqrt (((el + 2) * (el - 1)) / ((el + 1) * el))) in
  Ok (k', (index + 1)%Z).
(** compute_harmonic_kernel, measurements.py:151-160 *)
Definition compute_harmonic_kernel (L : Z) : res (list R) :=
  let k := repeat 1 (Z.to_nat (L * L)) in
  let* st := fold_left (fun s l => fold_left (fun s _ => kernel_step s l) (zrange (- l) (l + 1)) s)
                       (zrange 2 L) (Ok (k, 4%Z)) in
  Ok (fst st).

(** __init__, measurements.py:107-121: the object is its band limit and kernel;
    mask and ngal are ignored *)
Record wlh := mkWLH { wl_L : Z; wl_kernel : list R }.
Definition WLH_init (L : Z) : res wlh :=
  if (L <? 1)%Z then Raise ValueError else
  let* k := compute_harmonic_kernel L in
  Ok (mkWLH L k).

(** [out[:4] = 0] *)
Definition zero_head (out : vec) : vec := vzero (Nat.min 4 (length out)) ++ skipn 4 out.
(** harmonic_mapping, measurements.py:162-171 *)
Definition harmonic_mapping (w : wlh) (flm : vec) : res vec :=
  let* out := np_mul flm (map RtoC (wl_kernel w)) in Ok (zero_head out).
(** harmonic_inverse_mapping, measurements.py:173-182 *)
Definition harmonic_inverse_mapping (w : wlh) (flm : vec) : res vec :=
  let* out := np_div flm (map RtoC (wl_kernel w)) in Ok (zero_head out).
(** forward, adjoint, sks_estimate, measurements.py:123-149 *)
Definition WLH_forward := harmonic_mapping.
Definition WLH_adjoint := harmonic_mapping.
Definition WLH_sks_estimate := harmonic_inverse_mapping.

(** ** WeakLensing *)

(** a boolean array: shape and elements in row-major order *)
Record bmask := mkMask { b_shape : list nat; b_bits : list bool }.

(** elements of [l] where the bit is set *)
Fixpoint select {A} (bits : list bool) (l : list A) : list A :=
  match bits, l with
  | b :: bs, a :: l' => if b then a :: select bs l' else select bs l'
  | _, _ => []
  end.

(** [f[mask]] for a 2-D array f (r rows, c columns, elements [buf]): the elements
    of the result.  The mask's dimensions must match the leading dimensions of f;
    a 1-D mask selects rows, a 0-D mask everything or nothing. *)
Definition bool_index {A} (r c : nat) (buf : list A) (m : bmask) : res (list A) :=
  match b_shape m with
  | [] => Ok (if hd false (b_bits m) then buf else [])
  | [n] => if Nat.eqb n r then Ok (select (flat_map (fun b => repeat b c) (b_bits m)) buf) else Raise IndexError
  | [n; k] => if Nat.eqb n r && Nat.eqb k c then Ok (select (b_bits m) buf) else Raise IndexError
  | _ => Raise IndexError
  end.

(** [f[mask] = x] for a 2-D array f and a mask of the same shape: as many values
    as set bits, or a single one *)
Fixpoint scatter {A} (d : A) (bits : list bool) (f x : list A) : list A :=
  match bits, f with
  | true :: bs, _ :: f' => hd d x :: scatter d bs f' (tl x)
  | false :: bs, a :: f' => a :: scatter d bs f' x
  | _, _ => f
  end.
Definition count_true (bits : list bool) : nat := length (filter (fun b => b) bits).
Definition bool_assign {A} (d : A) (f : list A) (m : bmask) (x : list A) : res (list A) :=
  let k := count_true (b_bits m) in
  if Nat.eqb (length x) k then Ok (scatter d (b_bits m) f x)
  else match x with
       | [v] => Ok (scatter d (b_bits m) f (repeat v k))
       | _ => Raise ValueError
       end.

(** the Python expression [f is not f]: object identity, so never true, whatever
    f holds *)
Definition is_not_itself {A} (f : list A) : bool := false.

Definition shape_eqb (a b : list nat) : bool := if list_eq_dec Nat.eq_dec a b then true else false.

(** mask_forward, measurements.py:242-261, for a signal of any shape and any
    element type *)
Definition mask_forward {A} (L : nat) (m : bmask) (shape : list nat) (f : list A) : res (list A) :=
  if is_not_itself f then Raise ValueError
  else if negb (shape_eqb shape [L; (2 * L - 1)%nat]) then Raise ValueError
  else bool_index L (2 * L - 1) f m.
(** mask_adjoint, measurements.py:263-280; [zero] is the element of np.zeros *)
Definition mask_adjoint {A} (zero : A) (L : nat) (m : bmask) (x : list A) : res (list A) :=
  if is_not_itself x then Raise ValueError
  else bool_assign zero (repeat zero (L * (2 * L - 1))) m x.

(** var_e = 0.37 ** 2, measurements.py:121 *)
Definition var_e : R := (37 / 100) ^ 2.
(** ngal_to_inv_cov, measurements.py:282-293; the square root of a negative
    number (nan) is not modelled *)
Definition ngal_to_inv_cov (L : nat) (m : bmask) (shape : list nat) (ngal : list R) : res (list R) :=
  let* ngal_m := mask_forward L m shape ngal in
  Ok (map (fun x => sqrt (2 * x / var_e)) ngal_m).

Record wl := mkWL { w_base : wlh; w_L : nat; w_mask : bmask; w_invcov : list R }.

(** __init__, measurements.py:189-207.  [mask]: None or an array converted to
    bool; [ngal]: None or a real array. *)
Definition WL_init (L : Z) (mask : option bmask) (ngal : option (list nat * list R)) : res wl :=
  let* b := WLH_init L in
  let n := Z.to_nat L in
  let shape := [n; (2 * n - 1)%nat] in
  let m := match mask with
           | None => mkMask shape (repeat true (n * (2 * n - 1)))
           | Some m => m
           end in
  let* ic := match ngal with
             | None => mask_forward n m shape (repeat 1 (n * (2 * n - 1)))
             | Some g => ngal_to_inv_cov n m (fst g) (snd g)
             end in
  if shape_eqb (b_shape m) shape then Ok (mkWL b n m ic) else Raise ValueError.

(** pyssht's transforms with their L and Spin arguments *)
Record ssht := mkSsht {
  ss_forward : nat -> Z -> vec -> res vec;
  ss_inverse : nat -> Z -> vec -> res vec;
  ss_inverse_adjoint : nat -> Z -> vec -> res vec;
  ss_forward_adjoint : nat -> Z -> vec -> res vec }.

(** cov_weight, measurements.py:295-304: [x * self.inv_cov] *)
Definition cov_weight (w : wl) (x : vec) : res vec := np_mul x (map RtoC (w_invcov w)).

(** forward, measurements.py:209-216, with _forward, 221-230.  The two flags of
    _forward and _adjoint are True in every call.  kappa.reshape needs the
    right number of elements; arrays are given by their elements in row-major
    order. *)
Definition WL_forward (S : ssht) (w : wl) (kappa : vec) : res vec :=
  let L := w_L w in
  if Nat.eqb (length kappa) (L * (2 * L - 1)) then
    let* klm := ss_forward S L 0 kappa in
    let* glm := WLH_forward (w_base w) klm in
    let* gamma := ss_inverse S L 2 glm in
    let* gamma := mask_forward L (w_mask w) [L; (2 * L - 1)%nat] gamma in
    cov_weight w gamma
  else Raise ValueError.
(** adjoint, measurements.py:218-219, with _adjoint, 232-241, for a 1-D gamma *)
Definition WL_adjoint (S : ssht) (w : wl) (gamma : vec) : res vec :=
  let L := w_L w in
  let* gamma := cov_weight w gamma in
  let* gamma := mask_adjoint (RtoC 0) L (w_mask w) gamma in
  let* glm := ss_inverse_adjoint S L 2 gamma in
  let* klm := WLH_adjoint (w_base w) glm in
  ss_forward_adjoint S L 0 klm.
