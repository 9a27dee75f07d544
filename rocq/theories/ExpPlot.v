(** Model of the plotting scripts in /repo/experiments: earthtopography/plot.py,
    phasevel/plot.py and weaklensing/plot.py.  What is modelled: which numbers
    each figure, each printed line and each .npy file gets.  Command line and
    HDF5 file are taken as read; drawing is a drawing (Plotting.v) and does not
    fail by itself; the final listing of the attributes is left out.  Images are
    flattened arrays of L(2L-1) numbers.  Arithmetic is exact; NaN occurs only
    through plot_map's mask and is [None]; division by a zero norm is not
    modelled. *)
From Coq Require Import List ZArith Lia Bool Reals Lra String DecimalString.
From Coquelicot Require Import Coquelicot.
From Verif Require Import PyBase CVec RSort Utils Prior Measure Mcmc Uncertainty Plotting.
Import ListNotations.
Open Scope R_scope.
Notation length := List.length.
Notation append := String.append.

(** ** The pieces all three scripts share *)

(** what is read from the results file: params["L"], params["setting"],
    file.attrs["nsamples"], file["logposterior"], file["chain"] *)
Record results := mkResults {
  rs_L : nat; rs_setting : option string; rs_nsamples : Z; rs_logpi : list R; rs_chain : list vec }.
(** datafile aside, the command line *)
Record plot_args := mkPlotArgs { pa_directory : string; pa_suffix : string; pa_burn : Z; pa_npy : bool; pa_no_mask : bool }.

(** what a script produces; None is NaN *)
Inductive output :=
| OEvolution (path : string) (curve : list R * list nat)
| OMap (path : string) (vmax_nan : bool) (d : drawing)
| OSample (path : string) (curves : list R * list R)
| OPrint (label : string) (value : option R)
| ONpy (path : string) (data : list (option C)).

(** running a script: the outputs so far, in order, and an exception *)
Definition script (A : Type) : Type := list output -> list output * res A.
Definition sret {A} (a : A) : script A := fun o => (o, Ok a).
Definition slift {A} (r : res A) : script A := fun o => (o, r).
Definition emit (x : output) : script unit := fun o => (o ++ [x], Ok tt).
Definition sbind {A B} (m : script A) (k : A -> script B) : script B :=
  fun o => match m o with (o', Ok a) => k a o' | (o', Raise e) => (o', Raise e) end.
Notation "'run' x <- m ; k" := (sbind m (fun x => k)) (at level 200, x name, m at level 100, k at level 200).

(** filename(name, ext), phasevel/plot.py:41-42; earthtopography/plot.py:40-41
    has no second argument *)
Definition out_path (a : plot_args) (name ext : string) : string :=
  append (pa_directory a) (append "/" (append name (append (pa_suffix a) (append "." ext)))).

(** MAP_X = file["chain"][np.where(logpi == max(logpi))][0],
    earthtopography/plot.py:75-76 *)
Definition map_sample (logpi : list R) (chain : list vec) : res vec :=
  match logpi with
  | [] => Raise ValueError
  | x :: l =>
      let m := fold_left (fun m v => if Rltb m v then v else m) l x in
      let idx := filter (fun i => Reqb (nth i logpi 0) m) (seq 0 (length logpi)) in
      let* rows := rseq (map (fun i => py_index chain (Z.of_nat i)) idx) in
      py_index rows 0
  end.

(** arr.reshape(mw_shape) *)
Definition as_map (L : nat) (v : vec) : res vec := if Nat.eqb (length v) (L * (2 * L - 1)) then Ok v else Raise ValueError.
(** v.real *)
Definition real_of (v : vec) : vec := map (fun z : C => RtoC (fst z)) v.

(** MAP and MAP_wvlt, earthtopography/plot.py:77-83; [inv], [fwd] are the
    transform's inverse and forward *)
Definition MAP_of (setting : string) (inv fwd : vec -> res vec) (L : nat) (X : vec) : res (vec * vec) :=
  let* mw := if String.eqb setting "synthesis" then let* m := inv X in Ok (m, X)
             else let* w := fwd X in Ok (X, w) in
  let* m := as_map L (fst mw) in
  Ok (real_of m, snd mw).

(** the loop filling chain_pix, earthtopography/plot.py:108-112 *)
Fixpoint fill_pix (setting : string) (inv : vec -> res vec) (npix : nat) (cast : C -> C) (i : nat) (samples rows : list vec)
  : res (list vec) :=
  match samples with
  | [] => Ok rows
  | s :: samples' =>
      let* v := if String.eqb setting "synthesis" then inv s else Ok s in
      if Nat.ltb i (length rows) then
        let* r := store_row npix cast v in
        fill_pix setting inv npix cast (S i) samples' (upd rows i r)
      else Raise IndexError
  end.
(** chain_pix, earthtopography/plot.py:105-112, weaklensing/plot.py:127-135 (a
    complex array) *)
Definition chain_pix (cplx : bool) (setting : string) (inv : vec -> res vec) (L : nat) (nsamples burn : Z) (chain : list vec)
  : res (list vec) :=
  let npix := (L * (2 * L - 1))%nat in
  let n := (nsamples - burn)%Z in
  if (n <? 0)%Z then Raise ValueError
  else fill_pix setting inv npix (if cplx then fun z => z else to_float) 0 (py_slice chain (Some burn) None)
                (repeat (vzero npix) (Z.to_nat n)).

(** np.mean(chain_pix, axis=0) *)
Definition pix_mean (npix : nat) (rows : list vec) : vec :=
  map (fun p => (csum (map (fun r => nth p r (RtoC 0)) rows) / RtoC (INR (length rows)))%C) (seq 0 npix).

(** max([abs(np.min(d)), np.max(d)]), earthtopography/plot.py:89 *)
Definition cbar_end (d : vec) : res C :=
  let* mn := np_min d in
  let* mx := np_max d in
  let b := RtoC (Cmod mn) in
  Ok (if clex_ltb b mx then mx else b).
(** min(c, 100) *)
Definition cap100 (c : C) : C := if clex_ltb (RtoC 100) c then RtoC 100 else c.

(** truth - MAP: arrays of the same shape; for others a ValueError.  See np_sub2
    in ExpTruth.v for broadcasting. *)
Definition map_sub (truth : cmap) (L : nat) (v : vec) : res vec :=
  if (Nat.eqb (cm_rows truth) L && Nat.eqb (cm_cols truth) (2 * L - 1))%bool then Ok (map2 Cminus (cm_buf truth) v)
  else Raise ValueError.

(** (norm(preds - obs) / norm(obs)) ** 2, phasevel/plot.py:161 *)
Definition rel_squared_error (preds obs : vec) : res R :=
  let* d := np_sub preds obs in
  Ok ((norm d / norm obs) ^ 2).

(** pyssht.forward/inverse with Reality=True, used by _oversample *)
Section Scripts.
Variables rfwd rinv : nat -> vec -> vec.

Definition dflt : map_args := mkArgs None None true false None.
Definition zero_up (vmax : option C) : map_args := mkArgs (Some (RtoC 0)) vmax true false None.
Definition around0 (c : C) : map_args := mkArgs (Some (- c)%C) (Some c) true false None.
Definition centred : map_args := mkArgs None None true true None.
(** plot_map of an L x (2L-1) array, then savefig *)
Definition draw (path : string) (L : nat) (v : vec) (m : map_args) : script unit :=
  run d <- slift (plot_map rfwd rinv (mkCMap L (2 * L - 1) v) m);
  emit (OMap path false (fst d)).

(** ** earthtopography/plot.py *)

(** params["noise"]: no such attribute, a number, an array *)
Inductive noise_attr := NoNoise | NNum (r : R) | NArr (l : list R).
(** the truth value of [params["noise"]], plot.py:138 *)
Definition truthy (n : noise_attr) : res bool :=
  match n with
  | NoNoise => Ok false
  | NNum r => Ok (negb (Reqb r 0))
  | NArr [] => Ok false
  | NArr [r] => Ok (negb (Reqb r 0))
  | NArr _ => Raise ValueError
  end.
Definition noise_elems (n : noise_attr) : list R := match n with NoNoise => [] | NNum r => [r] | NArr l => l end.

(** plot.py:48-157; [typed] is what is typed when the file has no setting,
    [truth] the image of lines 69-70 *)
Definition topo_plot (typed : string) (inv fwd : vec -> res vec) (truth : cmap) (noise : noise_attr) (a : plot_args) (f : results)
  : script unit :=
  let L := rs_L f in
  let npix := (L * (2 * L - 1))%nat in
  let setting := match rs_setting f with Some s => s | None => typed end in
  run evo <- slift (plot_evolution (rs_logpi f));
  run _ <- emit (OEvolution (out_path a "evolution" "png") evo);
  run d <- slift (plot_map rfwd rinv truth dflt);
  run _ <- emit (OMap (out_path a "truth" "png") false (fst d));
  run X <- slift (map_sample (rs_logpi f) (rs_chain f));
  run M <- slift (MAP_of setting inv fwd L X);
  run _ <- draw (out_path a "MAP" "png") L (fst M) dflt;
  run diff <- slift (map_sub truth L (fst M));
  run c <- slift (cbar_end diff);
  run _ <- draw (out_path a "diff" "png") L diff (around0 c);
  run _ <- emit (OSample (out_path a "MAP_wvlt" "png") (plot_chain_sample (snd M)));
  run rows <- slift (chain_pix false setting inv L (rs_nsamples f) (pa_burn a) (rs_chain f));
  run ci <- slift (credible_interval_range (mkChain (map (map fst) rows) npix) (5 / 100));
  run _ <- draw (out_path a "ci_map" "png") L (map RtoC ci) (zero_up None);
  let mean := pix_mean npix rows in
  run _ <- draw (out_path a "mean" "png") L mean dflt;
  run diff_mean <- slift (map_sub truth L mean);
  run c <- slift (cbar_end diff_mean);
  run _ <- draw (out_path a "diff_mean" "png") L diff_mean (around0 c);
  run t <- slift (truthy noise);
  run _ <- (if t then
              run n <- slift (as_map L (map (fun r => RtoC (r / 1000)) (noise_elems noise)));
              run d <- slift (plot_map rfwd rinv (mkCMap L (2 * L - 1) n) (mkArgs None None false false None));
              run _ <- emit (OMap (out_path a "noise" "png") false (fst d));
              emit (OPrint "Input SNR" (Some (snr (cm_buf truth) n)))
            else sret tt);
  run _ <- emit (OPrint "Mean SNR" (Some (snr (cm_buf truth) diff_mean)));
  run _ <- emit (OPrint "MAP SNR" (Some (snr (cm_buf truth) diff)));
  (** filename("mean", "npy") has one argument too many *)
  if pa_npy a then slift (Raise TypeError) else sret tt.

(** ** phasevel/plot.py *)

(** np.max(plotting._oversample(m, 256)) for every wavelet scale, plot.py:122-124 *)
Fixpoint scales_vmax (vmax : C) (ms : list map2d) : res C :=
  match ms with
  | [] => Ok vmax
  | m :: ms' =>
      let* o := oversample rfwd rinv (mkCMap (mp_rows m) (mp_cols m) (map RtoC (mp_buf m))) 256 in
      let* x := np_max (cm_buf o) in
      scales_vmax (if clex_ltb vmax x then x else vmax) ms'
  end.
(** f"{i}" *)
Definition dec (n : nat) : string := NilZero.string_of_uint (Nat.to_uint n).
Fixpoint draw_scales (a : plot_args) (vmax : C) (i : nat) (ms : list map2d) : script unit :=
  match ms with
  | [] => sret tt
  | m :: ms' =>
      run d <- slift (plot_map rfwd rinv (mkCMap (mp_rows m) (mp_cols m) (map RtoC (mp_buf m))) (zero_up (Some vmax)));
      run _ <- emit (OMap (out_path a (append "ci_map_scale" (dec i)) "png") false (fst d));
      draw_scales a vmax (S i) ms'
  end.
Fixpoint save_figs (a : plot_args) (i : nat) (figs : list drawing) : script unit :=
  match figs with
  | [] => sret tt
  | d :: figs' =>
      run _ <- emit (OMap (out_path a (append "mean_scale" (dec i)) "png") false d);
      save_figs a (S i) figs'
  end.
(** the np.save calls, phasevel/plot.py:168-173, weaklensing/plot.py:197-202 *)
Definition save_arrays (a : plot_args) (mean MAP ci diff diff_mean : list (option C)) : script unit :=
  if pa_npy a then
    run _ <- emit (ONpy (out_path a "mean" "npy") mean);
    run _ <- emit (ONpy (out_path a "MAP" "npy") MAP);
    run _ <- emit (ONpy (out_path a "CI" "npy") ci);
    run _ <- emit (ONpy (out_path a "diff" "npy") diff);
    emit (ONpy (out_path a "diff_mean" "npy") diff_mean)
  else sret tt.
Definition key_setting (f : results) : res string := match rs_setting f with Some s => Ok s | None => Raise KeyError end.

(** plot.py:46-173; [til] is the tiling of (L, B, J_min), [analysis] is
    pys2let.analysis_px2wav; truth, path matrix and data come from the files of
    lines 79, 157 and 159 *)
Definition phasevel_plot (inv fwd : vec -> res vec) (til : tiling) (analysis : vec -> vec * vec) (truth : cmap) (path_matrix : cmat) (data_obs : vec)
    (a : plot_args) (f : results) : script unit :=
  let L := rs_L f in
  let npix := (L * (2 * L - 1))%nat in
  run setting <- slift (key_setting f);
  run evo <- slift (plot_evolution (rs_logpi f));
  run _ <- emit (OEvolution (out_path a "evolution" "png") evo);
  run X <- slift (map_sample (rs_logpi f) (rs_chain f));
  run M <- slift (MAP_of setting inv fwd L X);
  let MAP := fst M in
  run _ <- draw (out_path a "MAP" "png") L MAP centred;
  run diff <- slift (map_sub truth L MAP);
  run c <- slift (cbar_end diff);
  run _ <- draw (out_path a "diff" "png") L (map (fun z => RtoC (Cmod z)) diff) (zero_up (Some (cap100 c)));
  run _ <- emit (OSample (out_path a "MAP_wvlt" "png") (plot_chain_sample (snd M)));
  run rows <- slift (chain_pix false setting inv L (rs_nsamples f) (pa_burn a) (rs_chain f));
  run q <- slift (np_quantiles (mkChain (map (map fst) rows) npix) ((1 / 100) / 2) (1 - (1 / 100) / 2));
  let ci := map2 (fun lo hi => hi - lo) (fst q) (snd q) in
  run _ <- draw (out_path a "ci_map" "png") L (map RtoC ci) (zero_up None);
  run ws <- slift (wavelet_credible_interval_range
                     (mkChain (map (map fst) (py_slice (rs_chain f) (Some (pa_burn a)) None)) (length X)) L til (5 / 100));
  run vmax <- slift (scales_vmax (RtoC 0) ws);
  run _ <- draw_scales a vmax 0 ws;
  let mean := pix_mean npix rows in
  run _ <- draw (out_path a "mean" "png") L mean centred;
  run figs <- slift (plot_wavelet_maps
                       (fun _ v m => let* d := plot_map rfwd rinv m (mkArgs None v true true None) in Ok (fst d))
                       L til (fst (analysis mean)) (snd (analysis mean)) true (Some "Mean solution"%string) None);
  run _ <- save_figs a 0 figs;
  run diff_mean <- slift (map_sub truth L mean);
  run _ <- emit (OPrint "MAP SNR" (Some (snr (cm_buf truth) diff)));
  run _ <- emit (OPrint "Mean SNR" (Some (snr (cm_buf truth) diff_mean)));
  run preds <- slift (Path_forward path_matrix MAP);
  run e <- slift (rel_squared_error preds data_obs);
  run _ <- emit (OPrint "MAP R2E" (Some e));
  run preds <- slift (Path_forward path_matrix mean);
  run e <- slift (rel_squared_error preds data_obs);
  run _ <- emit (OPrint "Mean R2E" (Some e));
  save_arrays a (map Some mean) (map Some MAP) (map (fun r => Some (RtoC r)) ci) (map Some diff) (map Some diff_mean).

(** ** weaklensing/plot.py *)

(** numpy sorts complex numbers lexicographically *)
Fixpoint cinsert (z : C) (l : vec) : vec :=
  match l with
  | [] => [z]
  | y :: l' => if clex_ltb y z then y :: cinsert z l' else z :: l
  end.
Definition csort (l : vec) : vec := fold_right cinsert [] l.
(** np.quantile of a 1-D complex array, method "linear" *)
Definition cquantile (l : vec) (q : R) : res C :=
  match l with
  | [] => Raise IndexError
  | _ =>
      let s := csort l in
      let v := q * INR (length l - 1) in
      let lo := Z.to_nat (Int_part v) in
      let hi := Nat.min (S lo) (length s - 1) in
      Ok (nth lo s (RtoC 0) + (nth hi s (RtoC 0) - nth lo s (RtoC 0)) * RtoC (v - INR lo))%C
  end.
(** uncertainty.credible_interval_range(chain_pix), alpha = 0.05, of a complex array *)
Definition complex_range (npix : nat) (rows : list vec) : res vec :=
  rseq (map (fun p => let l := map (fun r => nth p r (RtoC 0)) rows in
                      let* lo := cquantile l (5 / 100 / 2) in
                      let* hi := cquantile l (1 - 5 / 100 / 2) in
                      Ok (hi - lo)%C) (seq 0 npix)).

(** arrays with NaN *)
Definition nan_sub (t : vec) (m : list (option C)) : list (option C) := map2 (fun z o => option_map (fun y => z - y)%C o) t m.
Definition nan_real (m : list (option C)) : list (option C) := map (option_map (fun z : C => RtoC (fst z))) m.
(** all entries, or NaN if one is NaN *)
Fixpoint no_nan (m : list (option C)) : option vec :=
  match m with
  | [] => Some []
  | None :: _ => None
  | Some z :: m' => option_map (cons z) (no_nan m')
  end.
(** cbar_end of diff * mask, capped at 100: NaN if an entry is NaN, masked or not *)
Definition masked_cbar (d : list (option C)) (mask : list bool) : res (option C) :=
  match no_nan (map2 (fun o (b : bool) => option_map (fun z => z * RtoC (if b then 1 else 0))%C o) d mask) with
  | None => Ok None
  | Some v => let* c := cbar_end v in Ok (Some (cap100 c))
  end.
(** plot_map of |d| with NaN in d: NaN pixels stay NaN; oversampling spreads them *)
Definition draw_nan (path : string) (L : nat) (v : list (option C)) (m : map_args) (vmax : option C) : script unit :=
  let filled := map (fun o => match o with Some z => z | None => RtoC 0 end) v in
  run d <- slift (plot_map rfwd rinv (mkCMap L (2 * L - 1) filled) m);
  let px := match no_nan v with
            | Some _ => dr_pixels (fst d)
            | None => if ma_oversample m then map (fun _ => None) (dr_pixels (fst d))
                      else map2 (fun o p => match o with None => None | Some _ => p end) v (dr_pixels (fst d))
            end in
  emit (OMap path (match vmax with None => true | Some _ => false end)
          (mkDrawing (dr_L (fst d)) px (dr_vmin (fst d)) (dr_vmax (fst d)))).
Definition snr_nan (t : vec) (d : list (option C)) : option R := option_map (snr t) (no_nan d).

Variable S : ssht.
(** pyssht.sample_positions and astropy's galactic latitude *)
Variables (positions : nat -> list R * list R) (gal_b : R -> R -> R).
(** build_mask(L, size=20).astype(bool), or all True: plot.py:79-86 *)
Definition plot_mask (no_mask : bool) (L : nat) : list bool :=
  if no_mask then repeat true (L * (2 * L - 1))
  else map (fun x => if Req_EM_T x 0 then false else true)
           (List.concat (build_mask L (fst (positions L)) (snd (positions L)) gal_b 20)).
(** wl.forward of an array: a NaN makes every harmonic coefficient, hence every
    prediction, NaN *)
Definition r2e_line (label : string) (w : wl) (obs : vec) (m : list (option C)) : script unit :=
  match no_nan m with
  | None => emit (OPrint label None)
  | Some v => run preds <- slift (WL_forward S w v);
              run e <- slift (rel_squared_error preds obs);
              emit (OPrint label (Some e))
  end.

(** plot.py:50-202 *)
Definition lensing_plot (inv fwd : vec -> res vec) (truth : cmap) (a : plot_args) (f : results) : script unit :=
  let L := rs_L f in
  let npix := (L * (2 * L - 1))%nat in
  run setting <- slift (key_setting f);
  let over := Nat.ltb L 256 in
  run evo <- slift (plot_evolution (rs_logpi f));
  run _ <- emit (OEvolution (out_path a "evolution" "png") evo);
  let mask := plot_mask (pa_no_mask a) L in
  let high := if over then 256%nat else L in
  let hidden := Plotting.mkMask high (2 * high - 1) (map negb (plot_mask (pa_no_mask a) high)) in
  run X <- slift (map_sample (rs_logpi f) (rs_chain f));
  run M <- slift (MAP_of setting inv fwd L X);
  run d <- slift (plot_map rfwd rinv (mkCMap L (2 * L - 1) (fst M)) (mkArgs None None over false (Some hidden)));
  run _ <- emit (OMap (out_path a "MAP" "png") false (fst d));
  (** the mask has been written into MAP unless it was oversampled *)
  let MAP := snd d in
  run _ <- slift (map_sub truth L (fst M));
  let diff := nan_real (nan_sub (cm_buf truth) MAP) in
  run c <- slift (masked_cbar diff mask);
  run _ <- draw_nan (out_path a "diff" "png") L (map (option_map (fun z => RtoC (Cmod z))) diff) (mkArgs (Some (RtoC 0)) c over false (Some hidden)) c;
  run _ <- emit (OSample (out_path a "MAP_wvlt" "png") (plot_chain_sample (snd M)));
  run rows <- slift (chain_pix true setting inv L (rs_nsamples f) (pa_burn a) (rs_chain f));
  run ci <- slift (complex_range npix rows);
  run d <- slift (plot_map rfwd rinv (mkCMap L (2 * L - 1) (real_of ci)) (mkArgs (Some (RtoC 0)) None over false (Some hidden)));
  run _ <- emit (OMap (out_path a "ci_map" "png") false (fst d));
  let mean := pix_mean npix rows in
  run d <- slift (plot_map rfwd rinv (mkCMap L (2 * L - 1) (real_of mean)) (mkArgs None None over false (Some hidden)));
  run _ <- emit (OMap (out_path a "mean" "png") false (fst d));
  run dm <- slift (map_sub truth L mean);
  let diff_mean := map Some (real_of dm) in
  run c <- slift (masked_cbar diff_mean mask);
  run _ <- draw_nan (out_path a "diffmean" "png") L (map (option_map (fun z => RtoC (Cmod z))) diff_mean) (mkArgs (Some (RtoC 0)) c over false (Some hidden)) c;
  run _ <- emit (OPrint "MAP SNR" (snr_nan (select mask (cm_buf truth)) (select mask diff)));
  run _ <- emit (OPrint "Mean SNR" (snr_nan (select mask (cm_buf truth)) (select mask diff_mean)));
  run w <- slift (WL_init (Z.of_nat L) (Some (Measure.mkMask [L; (2 * L - 1)%nat] mask)) None);
  run obs <- slift (WL_forward S w (cm_buf truth));
  run _ <- r2e_line "MAP R2E" w obs MAP;
  run _ <- r2e_line "Mean R2E" w obs (map Some mean);
  save_arrays a (map Some mean) MAP (map Some ci) diff diff_mean.
End Scripts.
