(** Model of how the scripts in /repo/experiments prepare their data and forward
    operators: earthtopography/main.py (79-120), phasevel/main.py (23-60,
    128-143), weaklensing/main.py (23-40, 90-107).  The functions take
    the parsed arguments; parsing is in Args.v and ArgsRun.v.  healpy, pys2let, pyssht,
    numpy.random, greatcirclepaths and file contents are arbitrary functions.
    Arithmetic is exact. *)
From Coq Require Import List ZArith Lia Bool Reals Lra String.
From Coquelicot Require Import Coquelicot.
From Verif Require Import PyBase CVec RSort Utils Measure Prior Forward Transforms.
Import ListNotations.
Open Scope R_scope.
Notation length := List.length.

(** [sub in s] for strings *)
Fixpoint str_contains (sub s : string) : bool :=
  String.prefix sub s || match s with String _ s' => str_contains sub s' | EmptyString => false end.

(** [np.linspace(a, b, n)] *)
Definition linspace (a b : R) (n : nat) : list R :=
  map (fun i => a + INR i * ((b - a) / INR (n - 1))) (seq 0 n).
(** [np.deg2rad] *)
Definition deg2rad (x : R) : R := x * (PI / 180).

(** ** earthtopography/main.py *)

(** hp.read_map, hp.map2alm, pys2let.lm_hp2lm, pys2let.alm2map_mw (with L and
    spin), np.load (elements in row-major order, and whether the dtype is
    complex), pyssht.theta_to_index and phi_to_index *)
Record topo_lib := mkTopoLib {
  tl_read_map : string -> res vec;
  tl_map2alm : vec -> Z -> res vec;
  tl_hp2lm : vec -> nat -> res vec;
  tl_alm2map : vec -> nat -> Z -> res vec;
  tl_load : string -> res (vec * bool);
  tl_theta_index : R -> nat -> res Z;
  tl_phi_index : R -> nat -> res Z }.

(** numpy's global generator: np.random.seed and the values of
    np.random.normal(0, scale) for an array of scales *)
Record npr (G : Type) := mkNpr {
  r_seed : option Z -> G -> G;
  r_normal : list R -> G -> list R * G }.
Arguments r_seed {G}. Arguments r_normal {G}.
(** a negative scale is a ValueError *)
Definition np_normal {G} (rnd : npr G) (scale : list R) (g : G) : res (list R * G) :=
  if existsb (fun s => Rltb s 0) scale then Raise ValueError else Ok (r_normal rnd scale g).

(** main.py:79-87: the image and whether it is complex.  A map in MW sampling is
    reshaped to two dimensions. *)
Definition read_topo (lib : topo_lib) (L : nat) (infile : string) : res (nda * bool) :=
  if str_contains "_hpx_" infile then
    let* topo := tl_read_map lib infile in
    let* alm := tl_map2alm lib topo (Z.of_nat L - 1) in
    let* lm := tl_hp2lm lib alm L in
    let* d := tl_alm2map lib lm L 0 in
    Ok (Arr1 d, true)
  else if str_contains "_mw_" infile then
    let* x := tl_load lib infile in
    if Nat.eqb (length (fst x)) (L * (2 * L - 1)) then Ok (Arr2 L (2 * L - 1) (fst x), snd x) else Raise ValueError
  else Raise ValueError.

(** [m[i, j] = v] for a 2-D array given by its rows *)
Definition setitem2 (m : list (list R)) (i j : Z) (v : R) : res (list (list R)) :=
  let* row := py_index m i in
  let* row := py_setitem row j v in
  py_setitem m i row.

(** main.py:94-101: the array [block] *)
Definition africa_block (lib : topo_lib) (L : nat) : res (list (list R)) :=
  let thetas := map deg2rad (linspace 60 120 100) in
  let phis := map deg2rad (linspace (-30) 30 100) in
  fold_left (fun st theta =>
      let* block := st in
      let* ti := tl_theta_index lib theta L in
      fold_left (fun st phi =>
          let* block := st in
          let* pi := tl_phi_index lib phi L in
          setitem2 block ti pi 1) phis (Ok block))
    thetas (Ok (repeat (repeat 0 (2 * L - 1)) L)).

(** main.py:102, [sig_d[block == 1] *= k]: the two shapes must agree *)
Definition scale_block (sig block : list (list R)) (k : R) : res (list (list R)) :=
  if list_eq_dec Nat.eq_dec (map (@length R) sig) (map (@length R) block)
  then Ok (map2 (map2 (fun s b => if Req_EM_T b 1 then s * k else s)) sig block)
  else Raise IndexError.

(** main.py:91-103: the noise level of every pixel, flattened in C order;
    [thetas], [phis] are the sample positions *)
Definition noise_level (lib : topo_lib) (L : nat) (thetas phis : list R) (sigma : R) (scaleafrica : Z) : res (list R) :=
  let* areas := calc_pixel_areas thetas phis 1 in
  let sig := map (map (fun a => sqrt (sigma ^ 2 / a))) areas in
  let* sig := if (scaleafrica =? 0)%Z then Ok sig
              else let* block := africa_block lib L in scale_block sig block (IZR scaleafrica) in
  Ok (List.concat sig).

(** [a += x] for a 1-D array x: x is broadcast to a, a keeps its shape *)
Definition np_iadd (a : nda) (x : vec) : res nda :=
  match a with
  | Arr1 v => let* w := np_add v x in
              if Nat.eqb (length w) (length v) then Ok (Arr1 w) else Raise ValueError
  | Arr2 r c buf =>
      if Nat.eqb (length x) c then Ok (Arr2 r c (map2 Cplus buf (List.concat (repeat x r))))
      else match x with
           | [v] => Ok (Arr2 r c (map (fun z => z + v)%C buf))
           | _ => Raise ValueError
           end
  end.
(** [a / 1000] *)
Definition per_thousand (a : nda) : nda :=
  let f := map (fun z : C => z / RtoC 1000)%C in
  match a with Arr1 v => Arr1 (f v) | Arr2 r c buf => Arr2 r c (f buf) end.

(** the variables topo_d / 1000, sig_d and noise (None: the number 0) *)
Record topo_set := mkTopo { ts_data : nda; ts_complex : bool; ts_sig : sigd; ts_noise : option (list R) }.

(** main.py:79-109 *)
Definition prepare_topo {G} (lib : topo_lib) (rnd : npr G) (L : nat) (thetas phis : list R) (infile : string)
           (makenoise : bool) (sigma : R) (scaleafrica : Z) (g : G) : res (topo_set * G) :=
  let* td := read_topo lib L infile in
  let (topo_d, cplx) := td : nda * bool in
  if makenoise then
    let g := r_seed rnd (Some 2%Z) g in
    let* sig_d := noise_level lib L thetas phis sigma scaleafrica in
    let* ng := np_normal rnd sig_d g in
    let (noise, g) := ng : list R * G in
    let* topo_d := np_iadd topo_d (map RtoC noise) in
    let g := r_seed rnd None g in
    Ok (mkTopo (per_thousand topo_d) cplx (SVec (map RtoC sig_d) false) (Some noise), g)
  else Ok (mkTopo (per_thousand topo_d) cplx (SPy (RtoC sigma) false) None, g).

(** main.py:118-120 for 1-D data *)
Definition topo_operator (sl : s2let) (junk : nat -> C) (inv : cmat -> res cmat) (L : nat) (setting : string)
           (v : vec) (cplx : bool) (s : sigd) : res forward_op :=
  SWTO_init sl junk inv (mkData v cplx) s setting L (3 / 2) 2 1 0.

(** [a - v] for a 2-D and a 1-D array *)
Definition np_sub_2d (r c : nat) (buf v : vec) : res nda :=
  if Nat.eqb (length v) c then Ok (Arr2 r c (map2 Cminus buf (List.concat (repeat v r))))
  else match v with
       | [x] => Ok (Arr2 r c (map (fun z => z - x)%C buf))
       | _ => if Nat.eqb c 1 then Ok (Arr2 r (length v) (flat_map (fun z => map (fun x => z - x)%C v) buf))
              else Raise ValueError
       end.
(** With 2-D data (main.py:85) the operator's len(data) is the number of rows
    (forward.py:109), and every residual is [data - preds] or its negative
    (mcmc.py:78, forward.py:68), here from the image X on. *)
Definition residual_2d (L r c : nat) (buf : vec) (X : vec) : res nda :=
  let* preds := Identity_forward r (mw_size L) X in np_sub_2d r c buf preds.

(** ** phasevel/main.py *)

(** what unpacking np.loadtxt(file, unpack=True) yields: numbers or columns *)
Inductive column := Scal (x : R) | Col (l : list R).
(** np.loadtxt with unpack=True on a file with these rows: the rows must have
    equal lengths; a single row or a single column is squeezed to one dimension,
    a single number to none (not iterable) *)
Definition loadtxt_unpack (rows : list (list R)) : res (list column) :=
  match rows with
  | [] => Ok []
  | [[_]] => Raise TypeError
  | [r] => Ok (map Scal r)
  | r :: rs =>
      if forallb (fun x => Nat.eqb (length x) (length r)) rs then
        if Nat.eqb (length r) 1 then Ok (map Scal (List.concat rows))
        else Ok (map (fun j => Col (map (fun row => nth j row 0) rows)) (seq 0 (length r)))
      else Raise ValueError
  end.

(** [np.stack([a, b], axis=1)], as the list of rows; numpy's AxisError for
    scalars is a ValueError *)
Definition stack1 (a b : column) : res (list (R * R)) :=
  match a, b with
  | Col x, Col y => if Nat.eqb (length x) (length y) then Ok (combine x y) else Raise ValueError
  | _, _ => Raise ValueError
  end.

Record paths_data := mkPaths {
  pd_start : list (R * R); pd_stop : list (R * R); pd_data : list R; pd_sig : list R; pd_nsim : list R }.
Definition as_col (c : column) : list R := match c with Scal x => [x] | Col l => l end.
(** read_datafile, phasevel/main.py:23-38; the seventh column is not used *)
Definition read_datafile (rows : list (list R)) : res paths_data :=
  let* cols := loadtxt_unpack rows in
  match cols with
  | [start_lat; start_lon; stop_lat; stop_lon; data; sig_d; mima; nsim] =>
      let* start := stack1 start_lat start_lon in
      let* stop := stack1 stop_lat stop_lon in
      let sig_d := as_col sig_d in
      let sig_d := if existsb (fun s => Rltb s 0) sig_d then map Rabs sig_d else sig_d in
      Ok (mkPaths start stop (as_col data) sig_d (as_col nsim))
  | _ => Raise ValueError
  end.

(** sparse.csr_matrix of a list of 1-D arrays *)
Definition csr_matrix (rows : list (list R)) : res cmat :=
  match rows with
  | [] => Ok (mkMat 1 0 (fun _ _ => RtoC 0))
  | r :: rs => if forallb (fun x => Nat.eqb (length x) (length r)) rs
               then Ok (mkMat (length rows) (length r) (fun i j => RtoC (nth j (nth i rows []) 0)))
               else Raise ValueError
  end.
(** get_path_matrix, phasevel/main.py:50-59; [build_path] (41-48) is an arbitrary
    function of start, stop and L.  starmap keeps the order; of several
    exceptions the first is taken. *)
Definition get_path_matrix (build_path : R * R -> R * R -> nat -> res (list R)) (start stop : list (R * R)) (L : nat)
  : res cmat :=
  let* paths := rseq (map (fun st => build_path (fst st) (snd st) L) (combine start stop)) in
  csr_matrix paths.

(** files holding sparse matrices *)
Definition npz_files := string -> option cmat.
Fixpoint str_ends (suf s : string) : bool :=
  String.eqb s suf || match s with String _ s' => str_ends suf s' | EmptyString => false end.
(** sparse.save_npz: the extension is appended when it is missing *)
Definition npz_name (p : string) : string := if str_ends ".npz" p then p else (p ++ ".npz")%string.
Definition save_npz (fs : npz_files) (p : string) (m : cmat) : npz_files :=
  fun q => if String.eqb q (npz_name p) then Some m else fs q.

(** phasevel/main.py:128-143; returns the files afterwards *)
Definition phasevel_operator (sl : s2let) (junk : nat -> C) (inv : cmat -> res cmat)
           (build_path : R * R -> R * R -> nat -> res (list R)) (fs : npz_files) (rows : list (list R))
           (pathsfile : string) (use_nsim : bool) (setting : string) (L : nat) : npz_files * res forward_op :=
  match read_datafile rows with
  | Raise e => (fs, Raise e)
  | Ok d =>
    let '(fs, pm) := match fs pathsfile with
                     | Some m => (fs, Ok m)
                     | None => match get_path_matrix build_path (pd_start d) (pd_stop d) L with
                               | Ok m => (save_npz fs pathsfile m, Ok m)
                               | Raise e => (fs, Raise e)
                               end
                     end in
    (fs, let* path_matrix := pm in
         if Nat.eqb (m_rows path_matrix) (length (pd_data d)) then
           let sig_d := if use_nsim then map2 (fun s n => s * sqrt n) (pd_sig d) (pd_nsim d) else pd_sig d in
           PIO_init sl junk inv path_matrix (mkData (map RtoC (pd_data d)) false) (SVec (map RtoC sig_d) false)
                    setting L 2 2 1 0
         else Raise AssertionError)
  end.

(** ** weaklensing/main.py *)

(** healpy: read_map, map2alm(map, lmax), alm2map(alm, nside), smoothing(map,
    sigma); pys2let.lm_hp2lm(alm, L) *)
Record healpy := mkHp {
  hp_read_map : string -> res vec;
  hp_map2alm : vec -> Z -> res vec;
  hp_alm2map : vec -> Z -> res vec;
  hp_smoothing : vec -> R -> res vec;
  hp_hp2lm : vec -> nat -> res vec }.

(** load_gammas, weaklensing/main.py:23-40; np.radians(50 / 60) *)
Definition load_gammas (hp : healpy) (S : ssht) (infile : string) (L : nat) (w : wl) : res vec :=
  let* kappa := hp_read_map hp infile in
  let lmax := (Z.of_nat L - 1)%Z in
  let nside := (3 * lmax - 1)%Z in
  let* alm := hp_map2alm hp kappa lmax in
  let* kappa_bl := hp_alm2map hp alm nside in
  let* kappa_s := hp_smoothing hp kappa_bl (deg2rad (50 / 60)) in
  let* alm := hp_map2alm hp kappa_s lmax in
  let* lm := hp_hp2lm hp alm L in
  let* kappa_mw := ss_inverse S L 0 lm in
  WL_forward S w kappa_mw.

(** [mask.astype(bool)] (measurements.py:198) of the array of build_mask *)
Definition mask_bits (L : nat) (m : list (list R)) : bmask :=
  mkMask [L; (2 * L - 1)%nat] (map (fun x => if Req_EM_T x 0 then false else true) (List.concat m)).

(** weaklensing/main.py:90-107: np.full_like(mask, 30) galaxies per pixel, the
    measurement's weights, and nparams=transform.ncoefs in both settings *)
Definition lensing_measurement (L : nat) (thetas phis : list R) (gal_b : R -> R -> R) : res wl :=
  let mask := build_mask L thetas phis gal_b 10 in
  WL_init (Z.of_nat L) (Some (mask_bits L mask))
          (Some ([L; (2 * L - 1)%nat], map (fun _ => 30) (List.concat mask))).
Definition lensing_operator (hp : healpy) (S : ssht) (sl : s2let) (junk : nat -> C) (inv : cmat -> res cmat)
           (infile : string) (L : nat) (thetas phis : list R) (gal_b : R -> R -> R) (setting : string) : res forward_op :=
  let* w := lensing_measurement L thetas phis gal_b in
  let* gammas := load_gammas hp S infile L w in
  let* t := SWT_init sl junk L 2 2 1 0 false in
  Forward_init inv (mkData gammas true) (SVec (map (fun x => RtoC (1 / x)) (w_invcov w)) false) setting
               (Some (swt_transform t)) (Some (mkMeas (WL_forward S w) (WL_adjoint S w))) (Some (sw_ncoefs t)).
