(** Model of how the plotting scripts in /repo/experiments open a results file:
    earthtopography/plot.py:44-63, 76, 106-108, phasevel/plot.py:46-56, 62, 97-99,
    weaklensing/plot.py:50-61, 90, 128-131.  The file is the one Objects.v's
    save_mcmc writes; [rd] is what h5py gives back for a stored value.  A value of
    an unexpected kind is a TypeError here, whichever operation would notice it.
    The image the scripts compare with (truth) is given. *)
From Coq Require Import List ZArith Bool Reals String.
From Coquelicot Require Import Coquelicot.
From Verif Require Import PyBase CVec Utils Prior Forward Sampler Mcmc Objects Measure Transforms Plotting ExpRun ExpPlot.
Import ListNotations.
Open Scope R_scope.
Notation length := List.length.

Section Open.
Context {B : Type}.
Variable rd : B -> pv.

(** d[k], in file.attrs, params or file *)
Definition read_key (d : dict B) (k : string) : res pv :=
  match dget d k with Some b => Ok (rd b) | None => Raise KeyError end.
Definition as_int (v : pv) : res Z := match v with VInt z => Ok z | _ => Raise TypeError end.
Definition as_float (v : pv) : res R :=
  match v with VInt z => Ok (IZR z) | VOther (XReal r) => Ok r | _ => Raise TypeError end.
Definition as_text (v : pv) : res string := match v with VOther (XStr s) => Ok s | _ => Raise TypeError end.
(** a data set of numbers; of rows *)
Definition as_numbers (v : pv) : res (list R) := match v with VScal l => Ok (map fst l) | _ => Raise TypeError end.
Definition as_rows (v : pv) : res (list vec) := match v with VChain l => Ok l | _ => Raise TypeError end.
(** ["noise" in params and params["noise"]], earthtopography/plot.py:138 *)
Definition as_noise (v : option pv) : res noise_attr :=
  match v with
  | None => Ok NoNoise
  | Some (VInt z) => Ok (NNum (IZR z))
  | Some (VOther (XReal r)) => Ok (NNum r)
  | Some (VOther (XArr l)) => Ok (NArr l)
  | Some _ => Raise TypeError
  end.

(** the wavelet parameters, the noise attribute and the rest *)
Record opened := mkOpened { op_B : R; op_Jmin : Z; op_noise : noise_attr; op_results : results }.

Definition open_results (file : h5file B) : res opened :=
  let at_ k := read_key (h5_attrs file) k in
  let* v := at_ "L"%string in let* L := as_int v in
  let* v := at_ "B"%string in let* wB := as_float v in
  let* v := at_ "J_min"%string in let* J := as_int v in
  let* setting := match dget (h5_attrs file) "setting" with
                  | Some b => let* s := as_text (rd b) in Ok (Some s)
                  | None => Ok None
                  end in
  let* v := read_key (h5_datasets file) "logposterior"%string in let* logpi := as_numbers v in
  let* _ := read_key (h5_datasets file) "L2s"%string in
  let* _ := read_key (h5_datasets file) "priors"%string in
  let* v := read_key (h5_datasets file) "chain"%string in let* chain := as_rows v in
  let* v := at_ "nsamples"%string in let* n := as_int v in
  let* noise := as_noise (option_map rd (dget (h5_attrs file) "noise")) in
  Ok (mkOpened wB J noise (mkResults (Z.to_nat L) setting n logpi chain)).

(** [wvlttrans = SphericalWaveletTransform(L, B, J_min)], then the rest of the script *)
Definition with_file (lib : s2let) (junk : nat -> C) (file : h5file B)
    (rest : swt -> opened -> list output * res unit) : list output * res unit :=
  match open_results file with
  | Raise e => ([], Raise e)
  | Ok o =>
    match SWT_init lib junk (rs_L (op_results o)) (op_B o) (op_Jmin o) 1 0 false with
    | Raise e => ([], Raise e)
    | Ok t => rest t o
    end
  end.

(** python plot.py FILE, the three scripts *)
Definition topo_plot_file (lib : s2let) (junk : nat -> C) rfwd rinv (typed : string) (truth : cmap) (a : plot_args) (file : h5file B) :=
  with_file lib junk file (fun t o =>
    topo_plot rfwd rinv typed (SWT_inverse t) (SWT_forward t) truth (op_noise o) a (op_results o) []).
(** [til] is the wavelet tiling of the file's L, B and J_min *)
Definition phasevel_plot_file (lib : s2let) (junk : nat -> C) rfwd rinv (til : tiling) (analysis : vec -> vec * vec) (truth : cmap)
    (path_matrix : cmat) (data_obs : vec) (a : plot_args) (file : h5file B) :=
  with_file lib junk file (fun t o =>
    phasevel_plot rfwd rinv (SWT_inverse t) (SWT_forward t) til analysis truth path_matrix data_obs a (op_results o) []).
Definition lensing_plot_file (lib : s2let) (junk : nat -> C) rfwd rinv (S : ssht) positions gal_b (truth : cmap)
    (a : plot_args) (file : h5file B) :=
  with_file lib junk file (fun t o =>
    lensing_plot rfwd rinv S positions gal_b (SWT_inverse t) (SWT_forward t) truth a (op_results o) []).
End Open.
