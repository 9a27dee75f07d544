(** Model of /repo/pxmcmc/plotting.py: the data each function hands to the
    drawing libraries.  Drawing itself (matplotlib, healpy, cartopy) is not
    modelled.  pyssht's transforms are oracles.  A map is a (rows, cols, buffer)
    triple with complex entries; maps of real numbers have imaginary part 0. *)
From Coq Require Import List ZArith Lia Bool Reals Lra String.
From Coquelicot Require Import Coquelicot.
From Verif Require Import PyBase CVec RSort Utils Prior.
Import ListNotations.
Notation length := List.length.
Open Scope R_scope.

Record cmap := mkCMap { cm_rows : nat; cm_cols : nat; cm_buf : vec }.

(** numpy's max/min of an array (lexicographic on complex numbers): ValueError
    for an empty array *)
Definition np_max (l : vec) : res C :=
  match l with [] => Raise ValueError | x :: l' => Ok (fold_left (fun m z => if clex_ltb m z then z else m) l' x) end.
Definition np_min (l : vec) : res C :=
  match l with [] => Raise ValueError | x :: l' => Ok (fold_left (fun m z => if clex_ltb z m then z else m) l' x) end.

(** _oversample, plotting.py:189-193; [fwd L buf], [inv L flm] are
    pyssht.forward/inverse with Reality=True; np.zeros of a negative size is a
    ValueError *)
Definition oversample (fwd inv : nat -> vec -> vec) (f : cmap) (L : nat) : res cmap :=
  let flm := fwd (cm_rows f) (cm_buf f) in
  let n := (Z.of_nat L ^ 2 - Z.of_nat (cm_rows f) ^ 2)%Z in
  if (n <? 0)%Z then Raise ValueError
  else Ok (mkCMap L (2 * L - 1) (inv L (flm ++ repeat (RtoC 0) (Z.to_nat n)))).

(** [f[mask] = nan]: IndexError unless the boolean mask has the shape of f;
    NaN is [None] *)
Record bmask := mkMask { bm_rows : nat; bm_cols : nat; bm_buf : list bool }.
Definition apply_mask (f : cmap) (m : bmask) : res (list (option C)) :=
  if (Nat.eqb (bm_rows m) (cm_rows f) && Nat.eqb (bm_cols m) (cm_cols f))%bool
  then Ok (map2 (fun z (b : bool) => if b then None else Some z) (cm_buf f) (bm_buf m))
  else Raise IndexError.

(** what reaches pyssht.mollweide_projection and imshow *)
Record drawing := mkDrawing {
  dr_L : nat;                  (** band limit given to mollweide_projection *)
  dr_pixels : list (option C);
  dr_vmin : option C; dr_vmax : option C }.

Record map_args := mkArgs {
  ma_vmin : option C; ma_vmax : option C; ma_oversample : bool; ma_centre0 : bool; ma_mask : option bmask }.

(** plot_map, plotting.py:47-84.  The second component is the caller's array
    after the call: with oversample=False the mask is written into it. *)
Definition plot_map (fwd inv : nat -> vec -> vec) (f : cmap) (a : map_args) : res (drawing * list (option C)) :=
  let* g := if ma_oversample a then oversample fwd inv f 256 else Ok f in
  let L := if ma_oversample a then 256%nat else cm_rows f in
  let* lims := if ma_centre0 a then
                 let* mx := np_max (cm_buf g) in
                 let* mn := np_min (cm_buf g) in
                 let b := RtoC (Cmod mn) in
                 let cbar_end := if clex_ltb mx b then b else mx in   (* max([mx, b]) *)
                 Ok (Some (- cbar_end)%C, Some cbar_end)
               else Ok (ma_vmin a, ma_vmax a) in
  let* px := match ma_mask a with
             | None => Ok (map Some (cm_buf g))
             | Some m => apply_mask g m
             end in
  Ok (mkDrawing L px (fst lims) (snd lims), if ma_oversample a then map Some (cm_buf f) else px).

(** reshape to the shape of a map of band limit bl *)
Definition reshape_map (v : vec) (bl : nat) : res cmap :=
  if Nat.eqb (length v) (bl * (2 * bl - 1)) then Ok (mkCMap bl (2 * bl - 1) v) else Raise ValueError.

(** figure titles, f-strings of plotting.py:111 and 121 *)
Inductive title := ScalingTitle (base : string) | WaveletTitle (base : string) (i : nat).

(** the loop of plot_wavelet_maps, plotting.py:117-125; [plot] draws one map
    with a title and the current vmax *)
Fixpoint wavelet_figs {F} (plot : title -> option C -> cmap -> res F) (base : string) (vmax : option C)
    (f_wav : vec) (scale_start i : nat) (bls : list nat) : res (list F) :=
  match bls with
  | [] => Ok []
  | bl :: bls' =>
      let scale_length := (bl * (2 * bl - 1))%nat in
      let wav := py_slice f_wav (Some (Z.of_nat scale_start)) (Some (Z.of_nat (scale_start + scale_length))) in
      let* m := reshape_map wav bl in
      let* fig := plot (WaveletTitle base i) vmax m in
      let* figs := wavelet_figs plot base vmax f_wav (scale_start + scale_length) (S i) bls' in
      Ok (fig :: figs)
  end.

(** plot_wavelet_maps, plotting.py:87-125.  [f_wav], [f_scal] are what
    pys2let.analysis_px2wav returns; [title], [vmax] come from map_args *)
Definition plot_wavelet_maps {F} (plot : title -> option C -> cmap -> res F) (L : nat) (til : tiling) (f_wav f_scal : vec)
    (same_scale : bool) (ttl : option string) (vmax : option C) : res (list F) :=
  let* bls := multires_bandlimits L til in
  let base := match ttl with Some t => t | None => ""%string end in
  let* b0 := py_index bls 0 in
  let* m0 := reshape_map f_scal b0 in
  let* fig0 := plot (ScalingTitle base) vmax m0 in
  let* vmax := if same_scale then let* m := np_max f_wav in Ok (Some (RtoC (fst m))) else Ok vmax in
  let* figs := wavelet_figs plot base vmax f_wav 0 1 (py_slice bls (Some 1%Z) None) in
  Ok (fig0 :: figs).

(** plot_evolution, plotting.py:139-169: the curve of -log posteriors and the
    indices handed to axvline, [np.where(logposteriors == max(logposteriors))];
    Python's max of an empty array is a ValueError *)
Definition plot_evolution (logposteriors : list R) : res (list R * list nat) :=
  match logposteriors with
  | [] => Raise ValueError
  | x :: l => let m := fold_left (fun m v => if Rltb m v then v else m) l x in
              Ok (map Ropp logposteriors, filter (fun i => Reqb (nth i logposteriors 0) m) (seq 0 (length logposteriors)))
  end.

(** plot_chain_sample, plotting.py:172-186: the two curves *)
Definition plot_chain_sample (X : vec) : list R * list R := (map fst X, map snd X).
