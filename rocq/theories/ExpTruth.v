(** Model of what the plotting scripts in /repo/experiments compare the results
    with: the images of earthtopography/plot.py:68-70, phasevel/plot.py:79 and
    weaklensing/plot.py:64-74, the path matrix and data of phasevel/plot.py:157-159,
    and numpy's subtraction of two images.  File names are fixed in the scripts.
    healpy, pys2let, pyssht and file contents are arbitrary functions, as in
    ExpData.v; utils.map2alm (utils.py:106-108) is hp.map2alm, see Stdout.v for
    what it does to the standard output. *)
From Coq Require Import List ZArith Bool Reals String.
From Coquelicot Require Import Coquelicot.
From Verif Require Import PyBase CVec Utils Measure Plotting ExpData.
Import ListNotations.
Open Scope R_scope.
Notation length := List.length.

(** the length of two broadcast axes *)
Definition bcast_dim (a b : nat) : option nat :=
  if Nat.eqb a b then Some a else if Nat.eqb a 1 then Some b else if Nat.eqb b 1 then Some a else None.
(** x[i, j] of an array that is broadcast: axes of length 1 are repeated *)
Definition bcast_get (x : cmap) (i j : nat) : C :=
  nth ((if Nat.eqb (cm_rows x) 1 then 0 else i) * cm_cols x + (if Nat.eqb (cm_cols x) 1 then 0 else j))%nat (cm_buf x) (RtoC 0).
(** x - y for 2-D arrays (earthtopography/plot.py:88, phasevel/plot.py:80,
    weaklensing/plot.py:109) *)
Definition np_sub2 (x y : cmap) : res cmap :=
  match bcast_dim (cm_rows x) (cm_rows y), bcast_dim (cm_cols x) (cm_cols y) with
  | Some r, Some c =>
      Ok (mkCMap r c (flat_map (fun i => map (fun j => bcast_get x i j - bcast_get y i j)%C (seq 0 c)) (seq 0 r)))
  | _, _ => Raise ValueError
  end.

(** earthtopography/plot.py:69-70; [real_inverse] is pyssht.inverse with
    Reality=True *)
Definition topo_truth (lib : topo_lib) (real_inverse : vec -> nat -> res vec) (L : nat) : res cmap :=
  let* topo := tl_read_map lib "ETOPO1_Ice_hpx_256.fits" in
  let* alm := tl_map2alm lib topo (Z.of_nat L - 1) in
  let* lm := tl_hp2lm lib alm L in
  let* m := real_inverse lm L in
  Ok (mkCMap L (2 * L - 1) (map (fun z => z / RtoC 1000)%C m)).

(** weaklensing/plot.py:64-74 *)
Definition lens_truth (hp : healpy) (S : ssht) (L : nat) : res cmap :=
  let lmax := (Z.of_nat L - 1)%Z in
  let nside := (3 * lmax - 1)%Z in
  let* kappa := hp_read_map hp "takahasi_4096_000_zs16_kappa.fits" in
  let* alm := hp_map2alm hp kappa lmax in
  let* kappa_bl := hp_alm2map hp alm nside in
  let* kappa_s := hp_smoothing hp kappa_bl (deg2rad (50 / 60)) in
  let* alm := hp_map2alm hp kappa_s lmax in
  let* lm := hp_hp2lm hp alm L in
  let* m := ss_inverse S L 0 lm in
  Ok (mkCMap L (2 * L - 1) m).

(** np.loadtxt(file)[:, j] for a file with these rows: a single row or column is
    squeezed to one dimension, which has no second index *)
Definition loadtxt_column (rows : list (list R)) (j : nat) : res (list R) :=
  match rows with
  | [] | [_] => Raise IndexError
  | r :: rs =>
      if forallb (fun x => Nat.eqb (length x) (length r)) rs then
        if (Nat.eqb (length r) 1 || Nat.leb (length r) j)%bool then Raise IndexError
        else Ok (map (fun row => nth j row 0) rows)
      else Raise ValueError
  end.
(** FileNotFoundError *)
Definition NoSuchFile : exn := OpError 2.
(** phasevel/plot.py:79, 157, 159: np.load, sparse.load_npz and np.loadtxt of
    files that may not exist.  The figures drawn between the three are in
    ExpPlot.v. *)
Record phase_files := mkPhaseFiles {
  pf_load : string -> option cmap; pf_npz : npz_files; pf_txt : string -> option (list (list R)) }.
(** the contents of a file *)
Definition opened_file {A} (x : option A) : res A := match x with Some a => Ok a | None => Raise NoSuchFile end.
(** truth, path matrix and data_obs *)
Definition phase_compared (fs : phase_files) : res (cmap * cmat * vec) :=
  let* truth := opened_file (pf_load fs "GDM40_L28.npy") in
  let* path_matrix := opened_file (pf_npz fs "0S254L28.npz"%string) in
  let* rows := opened_file (pf_txt fs "synthetic_GDM40_0S254_L28.txt") in
  let* d := loadtxt_column rows 4 in
  Ok (truth, path_matrix, map RtoC d).
