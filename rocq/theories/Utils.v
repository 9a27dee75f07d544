(** Model of the remaining functions of /repo/pxmcmc/utils.py: coefficient
    packing (11-52), band limits (116-125), Chebyshev polynomials (128-197),
    pixel areas (200-246), norm and snr (302-317), build_mask (320-349).
    Thresholding is in Thresh.v, the quadrature in Quad.v, suppress_stdout in
    Stdout.v.  Arithmetic is exact. *)
From Coq Require Import List ZArith Lia Bool Reals Lra.
From Coquelicot Require Import Coquelicot.
From Verif Require Import PyBase CVec RSort.
Import ListNotations.
Open Scope R_scope.

(** ** numpy arrays of one or two dimensions *)

(** A 2-D array is its shape and its elements in row-major (C) order. *)
Inductive nda :=
| Arr1 (v : vec)
| Arr2 (rows cols : nat) (buf : vec).

(** element (i, j) of a 2-D array *)
Definition at2 (cols : nat) (buf : vec) (i j : nat) : C := nth (i * cols + j) buf (RtoC 0).

(** [a.ravel(order="F")]: column after column *)
Definition ravel_F (a : nda) : vec :=
  match a with
  | Arr1 v => v
  | Arr2 r c buf => flat_map (fun j => map (fun i => at2 c buf i j) (seq 0 r)) (seq 0 c)
  end.

(** flatten_mlm, utils.py:11-22.  scal_lm is 1-D. *)
Definition flatten_mlm (wav_lm : nda) (scal_lm : vec) : vec := scal_lm ++ ravel_F wav_lm.

(** expand_mlm, utils.py:25-52, for a 1-D mlm.  The array filled column by
    column (utils.py:44-46) is given by its elements: column i holds
    mlm[(i+1)*v_len : (i+2)*v_len]. *)
Definition expand_mlm (mlm : vec) (nscales nscalcoefs : option Z) (flatten_wavs : bool) : res (nda * vec) :=
  match nscales, nscalcoefs with
  | None, None => Raise ValueError
  | Some _, Some _ => Raise ValueError
  | Some ns, None =>
      let* v_len := py_floordiv (Z.of_nat (length mlm)) (ns + 1) in
      if (0 <? v_len)%Z then
        let scal := py_slice mlm None (Some v_len) in
        if (ns <? 0)%Z then Raise ValueError else
        let cols := map (fun i => py_slice mlm (Some ((i + 1) * v_len)%Z) (Some ((i + 2) * v_len)%Z)) (zrange 0 ns) in
        if flatten_wavs then
          match cols with
          | [] => Raise ValueError
          | _ => Ok (Arr1 (List.concat cols), scal)
          end
        else
          let r := Z.to_nat v_len in
          Ok (Arr2 r (Z.to_nat ns)
                (flat_map (fun i => map (fun c => nth i c (RtoC 0)) cols) (seq 0 r)), scal)
      else Raise AssertionError
  | None, Some k => Ok (Arr1 (py_slice mlm (Some k) None), py_slice mlm None (Some k))
  end.

(** ** Band limits *)

(** [np.nonzero(g)[0].max() + 1]; the maximum of an empty array is a ValueError *)
Fixpoint last_nonzero (g : vec) (k : nat) (acc : option nat) : option nat :=
  match g with
  | [] => acc
  | z :: g' => last_nonzero g' (S k) (if Req_EM_T (Cmod z) 0 then acc else Some k)
  end.
Definition bandlimit_of (g : vec) : res nat :=
  match last_nonzero g 0 None with Some k => Ok (k + 1)%nat | None => Raise ValueError end.

(** What pys2let.wavelet_tiling(B, L, dirs, J_min, spin) returns: the scaling
    function and the columns of psi_lm. *)
Record tiling := mkTiling { phi_l : vec; psi_cols : list vec }.

(** the m=0 harmonics of a wavelet, utils.py:120: [psi[el**2+el] for el in range(L)] *)
Definition m0_part (L : nat) (psi : vec) : res vec :=
  rseq (map (fun el => py_index psi (Z.of_nat (el ^ 2 + el))) (seq 0 L)).

(** _multires_bandlimits, utils.py:116-125; [t] is the tiling *)
Definition multires_bandlimits (L : nat) (t : tiling) : res (list nat) :=
  let* psi_l := rseq (map (m0_part L) (psi_cols t)) in
  if Nat.eqb (length (phi_l t)) L then        (* np.vstack *)
    rseq (map bandlimit_of (phi_l t :: psi_l))
  else Raise ValueError.

(** ** Chebyshev polynomials *)

(** the recursion of chebyshev1, utils.py:128-151, for order >= 0 *)
Fixpoint cheb1_rec (X : R) (n : nat) : R :=
  match n with
  | O => 1
  | S O => X
  | S ((S m) as k) => 2 * X * cheb1_rec X k - cheb1_rec X m
  end.
Definition chebyshev1 (X : R) (order : Z) : res R :=
  if (order <? 0)%Z then Raise ValueError else Ok (cheb1_rec X (Z.to_nat order)).

(** chebyshev2, utils.py:154-177 *)
Fixpoint cheb2_rec (X : R) (n : nat) : R :=
  match n with
  | O => 1
  | S O => 2 * X
  | S ((S m) as k) => 2 * X * cheb2_rec X k - cheb2_rec X m
  end.
Definition chebyshev2 (X : R) (order : Z) : res R :=
  if (order <? 0)%Z then Raise ValueError else Ok (cheb2_rec X (Z.to_nat order)).

(** cheb1der, utils.py:180-197 *)
Definition cheb1der (X : R) (order : Z) : res R :=
  if (order <? 0)%Z then Raise ValueError
  else if (order =? 0)%Z then Ok 0
  else let* u := chebyshev2 X (order - 1) in Ok (IZR order * u).

(** ** Pixel areas *)

(** pixel_area, utils.py:200-212 *)
Definition pixel_area (r theta1 theta2 phi1 phi2 : R) : R :=
  r ^ 2 * (cos theta1 - cos theta2) * (phi2 - phi1).
(** polar_cap_area, utils.py:215-224 *)
Definition polar_cap_area (r theta : R) : R := 2 * PI * r ^ 2 * (1 - cos theta).

(** consecutive pairs of a list *)
Fixpoint pairs {A} (l : list A) : list (A * A) :=
  match l with
  | a :: ((b :: _) as l') => (a, b) :: pairs l'
  | _ => []
  end.

(** calc_pixel_areas, utils.py:227-246, as the list of its rows, for the sample
    positions [thetas], [phis] that pyssht.sample_positions(L) returned.
    An empty [thetas] makes thetas[0] an IndexError. *)
Definition calc_pixel_areas (thetas phis : list R) (r : R) : res (list (list R)) :=
  match thetas with
  | [] => Raise IndexError
  | theta0 :: _ =>
      let nphis := length phis in
      let phis2 := phis ++ [2 * PI] in
      Ok (repeat (polar_cap_area r theta0 / INR nphis) nphis
          :: map (fun tt => map (fun pp => pixel_area r (fst tt) (snd tt) (fst pp) (snd pp)) (pairs phis2))
                 (pairs thetas))
  end.

(** ** norm and snr *)

(** norm, utils.py:302-303: np.linalg.norm *)
Definition norm (x : vec) : R := sqrt (nrm2 x).
Definition log10 (x : R) : R := ln x / ln 10.
(** snr, utils.py:306-317.  Division by a zero norm (inf in Python) is not modelled. *)
Definition snr (signal noise : vec) : R := 20 * log10 (norm signal / norm noise).

(** ** build_mask *)

(** [np.degrees] *)
Definition degrees (x : R) : R := x * 180 / PI.

(** assignment mask[i, j] = 0 inside a loop over all (i, j), guarded by [p] *)
Definition mask_where (p : nat -> nat -> bool) (rows cols : nat) (mask : list (list R)) : list (list R) :=
  map (fun i => map (fun j => if p i j then 0 else nth j (nth i mask []) 0) (seq 0 cols)) (seq 0 rows).

(** build_mask, utils.py:320-349.  [shape] is pyssht.sample_shape(L), [thetas],
    [phis] the sample positions, [gal_b ra dec] (degrees) the galactic latitude
    that astropy computes for the sky position (ra, dec).  The second loop runs
    over range(L) x range(2L-1). *)
Definition build_mask (L : nat) (thetas phis : list R) (gal_b : R -> R -> R) (size : R) : list (list R) :=
  let mask := repeat (repeat 1 (2 * L - 1)) L in
  let mask := mask_where (fun i _ => Rltb (Rabs (90 - degrees (nth i thetas 0))) size)
                         (length thetas) (length phis) mask in
  let degm i j := Rabs (gal_b (degrees (nth j phis 0) - 180) (degrees (nth i thetas 0) - 90)) in
  mask_where (fun i j => Rltb (degm i j) size) L (2 * L - 1) mask.
