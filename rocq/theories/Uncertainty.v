(** Model of /repo/pxmcmc/uncertainty.py.  Chains and log posteriors are real;
    arithmetic is exact.  numpy's quantile is transcribed from its documentation
    (method "linear"). *)
From Coq Require Import List ZArith Lia Bool Reals Lra.
From Verif Require Import PyBase CVec RSort Utils Transforms.
Import ListNotations.
Open Scope R_scope.

(** linear interpolation in the sorted list [s] at the virtual index [v] *)
Definition interp (s : list R) (v : R) : R :=
  let lo := Z.to_nat (Int_part v) in
  let hi := Nat.min (S lo) (length s - 1) in
  nth lo s 0 + (nth hi s 0 - nth lo s 0) * (v - INR lo).

(** [np.quantile(a, q)] for a 1-D array: ValueError outside [0, 1]; no value
    exists for an empty array (IndexError) *)
Definition np_quantile (a : list R) (q : R) : res R :=
  if (Rleb 0 q && Rleb q 1)%bool then
    match a with
    | [] => Raise IndexError
    | _ => Ok (interp (rsort a) (q * INR (length a - 1)))
    end
  else Raise ValueError.

(** a 2-D array of samples: nsamples rows of [ch_cols] numbers *)
Record chain := mkChain { ch_rows : list (list R); ch_cols : nat }.
Definition column (j : nat) (rows : list (list R)) : list R := map (fun r => nth j r 0) rows.

(** [np.quantile(chain, (q1, q2), axis=0)], the two rows *)
Definition np_quantiles (c : chain) (q1 q2 : R) : res (list R * list R) :=
  if (Rleb 0 q1 && Rleb q1 1 && Rleb 0 q2 && Rleb q2 1)%bool then
    match ch_rows c with
    | [] => Raise IndexError
    | _ => let* a := rseq (map (fun j => np_quantile (column j (ch_rows c)) q1) (seq 0 (ch_cols c))) in
           let* b := rseq (map (fun j => np_quantile (column j (ch_rows c)) q2) (seq 0 (ch_cols c))) in
           Ok (a, b)
    end
  else Raise ValueError.

(** credible_interval_range, uncertainty.py:7-16; [np.diff(.., axis=0)[0]] is
    second row minus first *)
Definition credible_interval_range (c : chain) (alpha : R) : res (list R) :=
  let* q := np_quantiles c (alpha / 2) (1 - alpha / 2) in
  Ok (map2 (fun lo hi => hi - lo) (fst q) (snd q)).

(** [chain[:, a:b]] *)
Definition slice_cols (c : chain) (a b : Z) : chain :=
  mkChain (map (fun r => py_slice r (Some a) (Some b)) (ch_rows c))
          (length (py_slice (repeat tt (ch_cols c)) (Some a) (Some b))).

(** an array reshaped to two dimensions; ValueError if the size differs *)
Record map2d := mkMap { mp_rows : nat; mp_cols : nat; mp_buf : list R }.
Definition reshape2 (l : list R) (r c : nat) : res map2d :=
  if Nat.eqb (length l) (r * c) then Ok (mkMap r c l) else Raise ValueError.

(** the loop of wavelet_credible_interval_range, uncertainty.py:33-39;
    pyssht.sample_shape(bl) = (bl, 2 bl - 1) *)
Fixpoint wavelet_ranges (c : chain) (alpha : R) (start : nat) (bls : list nat) : res (list map2d) :=
  match bls with
  | [] => Ok []
  | bl :: bls' =>
      let len := sample_length bl in
      let wav := slice_cols c (Z.of_nat start) (Z.of_nat (start + len)) in
      let* ci := credible_interval_range wav alpha in
      let* m := reshape2 ci bl (2 * bl - 1) in
      let* rest := wavelet_ranges c alpha (start + len) bls' in
      Ok (m :: rest)
  end.
(** wavelet_credible_interval_range, uncertainty.py:19-40; [til] is the wavelet
    tiling of (L, B, J_min) *)
Definition wavelet_credible_interval_range (c : chain) (L : nat) (til : tiling) (alpha : R) : res (list map2d) :=
  let* bls := multires_bandlimits L til in
  wavelet_ranges c alpha 0 bls.

(** credible_region_threshold, uncertainty.py:43-51 *)
Definition credible_region_threshold (logpis : list R) (alpha : R) : res R := np_quantile logpis (1 - alpha).
(** in_credible_region, uncertainty.py:54-56 *)
Definition in_credible_region (logpi threshold : R) : bool := Rleb logpi threshold.
