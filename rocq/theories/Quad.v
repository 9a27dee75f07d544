(** Model of the quadrature code, /repo/pxmcmc/utils.py:249-299
    (mw_weights, weights_theta, mw_map_weights, s2_integrate).
    Arithmetic is exact; np.fft.fft and np.fft.ifftshift are written out from
    their definitions. *)
From Coq Require Import List ZArith Lia Bool Reals Lra.
From Coquelicot Require Import Coquelicot.
From Verif Require Import PyBase CVec.
Import ListNotations.
Open Scope R_scope.

(** [np.exp(1j*x)] for real x *)
Definition Cis (x : R) : C := (cos x, sin x).

(** mw_weights(m), utils.py:249-259.  [m % 2 == 0] is parity for every sign. *)
Definition mw_weights (m : Z) : C :=
  if (m =? 1)%Z then (RtoC PI * Ci / RtoC 2)%C
  else if (m =? -1)%Z then (- (RtoC PI * Ci / RtoC 2))%C
  else if (m mod 2 =? 0)%Z then RtoC (2 / (1 - IZR m * IZR m))
  else RtoC 0.

(** [np.fft.ifftshift(x)]: element k of the result is x[(k + n//2) mod n] *)
Definition ifftshift (x : vec) : vec :=
  let n := length x in
  map (fun k => nth ((k + n / 2) mod n) x (RtoC 0)) (seq 0 n).

(** [np.fft.fft(x)]: element t is sum_k x[k] exp(-2 pi i k t / n) *)
Definition fft (x : vec) : vec :=
  let n := length x in
  map (fun t => csum (map (fun k =>
         nth k x (RtoC 0) * Cis (- (2 * PI * INR k * INR t / INR n)))%C (seq 0 n)))
      (seq 0 n).

(** weights_theta(L), utils.py:262-267.  np.zeros(2L-1) raises ValueError for
    L <= 0. *)
Definition weights_theta (L : Z) : res (list R) :=
  if (2 * L - 1 <? 0)%Z then Raise ValueError else
  let wr := map (fun m => mw_weights m * Cis (- (IZR m * PI / IZR (2 * L - 1))))%C
                (zrange (- (L - 1)) L) in
  Ok (map (fun z => Re (z * RtoC 2 * RtoC PI / RtoC (IZR (2 * L - 1) ^ 2))%C)
          (fft (ifftshift wr))).

(** the loop [for i, j in enumerate(range(2L-2, L-1, -1)): q[i] = q[i] + wr[j]],
    utils.py:280-281; it touches the first L-1 entries *)
Definition fold_weights (L : Z) (wr : list R) : list R :=
  let q := py_slice wr (Some 0%Z) (Some L) in
  map (fun i => nth i q 0 + (if (Z.of_nat i <? L - 1)%Z
                             then nth (Z.to_nat (2 * L - 2 - Z.of_nat i)) wr 0 else 0))
      (seq 0 (length q)).

(** mw_map_weights(L), utils.py:270-283: [np.outer(q, ones(2L-1)).flatten()] *)
Definition mw_map_weights (L : Z) : res (list R) :=
  let* wr := weights_theta L in
  let q := fold_weights L wr in
  Ok (List.concat (map (fun a => repeat (a * 1) (Z.to_nat (2 * L - 1))) q)).

(** s2_integrate(f, L), utils.py:286-299 *)
Definition s2_integrate (f : vec) (L : Z) : res C :=
  let* Q := mw_map_weights L in
  let* f_weighted := np_mul (map RtoC Q) f in
  Ok (csum f_weighted).
