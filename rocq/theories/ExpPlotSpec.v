(** Vocabulary for C52: what the plotting scripts should compute from a results
    file. *)
From Coq Require Import List ZArith Bool Reals String DecimalString.
From Coquelicot Require Import Coquelicot.
From Verif Require Import PyBase CVec Utils Prior Measure Plotting Uncertainty P_Unc P_Mcmc ExpPlot.
Import ListNotations.
Open Scope R_scope.
Notation length := List.length.

(** k is the first position of a largest entry *)
Definition first_largest (l : list R) (k : nat) : Prop :=
  (k < length l)%nat /\ (forall i, (i < length l)%nat -> nth i l 0 <= nth k l 0) /\ forall i, (i < k)%nat -> nth i l 0 < nth k l 0.
(** v is the image a sample stands for *)
Definition image_of (setting : string) (inv : vec -> res vec) (s v : vec) : Prop :=
  (setting = "synthesis"%string /\ inv s = Ok v) \/ (setting <> "synthesis"%string /\ v = s).
(** the rows of an array are the images of the samples *)
Definition images_of (setting : string) (inv : vec -> res vec) (npix : nat) (keep : C -> C) (samples rows : list vec) : Prop :=
  Forall2 (fun s r => exists v, image_of setting inv s v /\ assigned npix keep v r) samples rows.
(** pixelwise average *)
Definition average_of (npix : nat) (rows : list vec) (m : vec) : Prop :=
  length m = npix /\ forall p, (p < npix)%nat ->
    fst (nth p m (RtoC 0)) = rsum (map (fun r => fst (nth p r (RtoC 0))) rows) / INR (length rows) /\
    snd (nth p m (RtoC 0)) = rsum (map (fun r => snd (nth p r (RtoC 0))) rows) / INR (length rows).
(** the largest magnitude of an array of real numbers *)
Definition largest_magnitude (d : vec) (c : R) : Prop :=
  (forall z, In z d -> Cmod z <= c) /\ exists z, In z d /\ Cmod z = c.
(** the credible interval ranges of the real parts *)
Definition ranges_of (npix : nat) (rows : list vec) (alpha : R) (ci : list R) : Prop :=
  length ci = npix /\ forall p, (p < npix)%nat -> range_of (mkChain (map (map fst) rows) npix) alpha p (nth p ci 0).
(** entry by entry difference *)
Definition difference (t v d : vec) : Prop :=
  length d = Nat.min (length t) (length v) /\
  forall p, (p < length d)%nat -> nth p d (RtoC 0) = (nth p t (RtoC 0) - nth p v (RtoC 0))%C.

(** MAP image, MAP parameters, and the images of the kept samples *)
Definition estimates (keep : C -> C) (setting : string) (inv fwd : vec -> res vec) (burn : Z) (f : results) (MAP wv : vec) (rows : list vec) : Prop :=
  let npix := (rs_L f * (2 * rs_L f - 1))%nat in
  (exists k X m, first_largest (rs_logpi f) k /\ nth_error (rs_chain f) k = Some X /\ image_of setting inv X m /\ length m = npix /\
     MAP = map (fun z => RtoC (Re z)) m /\
     ((setting = "synthesis"%string /\ wv = X) \/ (setting <> "synthesis"%string /\ fwd X = Ok wv))) /\
  (burn <= rs_nsamples f)%Z /\ length rows = Z.to_nat (rs_nsamples f - burn) /\
  ((0 <= burn)%Z -> rs_nsamples f = Z.of_nat (length (rs_chain f)) -> images_of setting inv npix keep (skipn (Z.to_nat burn) (rs_chain f)) rows).

Section Reports.
Variables rfwd rinv : nat -> vec -> vec.
(** d is what plot_map draws for the L x (2L-1) array v *)
Definition drawn (L : nat) (v : vec) (m : map_args) (d : drawing) : Prop :=
  exists after, plot_map rfwd rinv (mkCMap L (2 * L - 1) v) m = Ok (d, after).
(** colour limits: none; 0 and c; -c and c; symmetric about 0 *)
Definition auto_limits : map_args := mkArgs None None true false None.
Definition from0 (c : option C) : map_args := mkArgs (Some (RtoC 0)) c true false None.
Definition symmetric (c : R) : map_args := mkArgs (Some (RtoC (- c))) (Some (RtoC c)) true false None.
Definition centre0 : map_args := mkArgs None None true true None.
Definition full_shape (t : cmap) (L : nat) : Prop := cm_rows t = L /\ cm_cols t = (2 * L - 1)%nat.
Definition file_name (a : plot_args) (name ext : string) : string :=
  (pa_directory a ++ "/" ++ name ++ pa_suffix a ++ "." ++ ext)%string.

Definition prints (label : string) (r : R) : output := OPrint label (Some r).
(** np.save of an array without NaN *)
Definition saves (path : string) (v : vec) : output := ONpy path (map Some v).
Definition magnitudes (d : vec) : vec := map (fun z => RtoC (Cmod z)) d.
Definition sum_squares (v : vec) : R := rsum (map (fun z => Cmod z ^ 2) v).
(** |p - d|^2 / |d|^2 *)
Definition relative_error (d p : vec) (e : R) : Prop :=
  length p = length d -> sum_squares d <> 0 ->
  e = rsum (map2 (fun x y : C => Cmod (x - y)%C ^ 2) p d) / sum_squares d.

(** the output of a complete run of earthtopography/plot.py *)
Definition topo_report (typed : string) (inv fwd : vec -> res vec) (truth : cmap) (noise : noise_attr) (a : plot_args) (f : results) (outs : list output) : Prop :=
  let L := rs_L f in let npix := (L * (2 * L - 1))%nat in
  let setting := match rs_setting f with Some s => s | None => typed end in
  exists evo MAP wv rows ci mean diff diff_mean c cm dt dM dd dci dmean ddm extra,
    plot_evolution (rs_logpi f) = Ok evo /\ estimates real_part setting inv fwd (pa_burn a) f MAP wv rows /\
    full_shape truth L /\ rows <> [] /\ ranges_of npix rows (1 / 20) ci /\ average_of npix rows mean /\
    difference (cm_buf truth) MAP diff /\ difference (cm_buf truth) mean diff_mean /\
    largest_magnitude diff c /\ largest_magnitude diff_mean cm /\
    drawn L (cm_buf truth) auto_limits dt /\ drawn L MAP auto_limits dM /\ drawn L diff (symmetric c) dd /\
    drawn L (map RtoC ci) (from0 None) dci /\ drawn L mean auto_limits dmean /\ drawn L diff_mean (symmetric cm) ddm /\
    (** the added noise is drawn when the attribute is a nonzero number *)
    (forall r, (noise = NNum r \/ noise = NArr [r]) -> r <> 0 -> L = 1%nat /\
       let n := [RtoC (r / 1000)] in exists dn, drawn L n (mkArgs None None false false None) dn /\
       extra = [OMap (file_name a "noise" "png") false dn; prints "Input SNR" (snr (cm_buf truth) n)]) /\
    ((noise = NoNoise \/ noise = NNum 0 \/ noise = NArr [] \/ noise = NArr [0]) -> extra = []) /\
    outs = [OEvolution (file_name a "evolution" "png") evo; OMap (file_name a "truth" "png") false dt; OMap (file_name a "MAP" "png") false dM;
            OMap (file_name a "diff" "png") false dd; OSample (file_name a "MAP_wvlt" "png") (map Re wv, map Im wv);
            OMap (file_name a "ci_map" "png") false dci; OMap (file_name a "mean" "png") false dmean; OMap (file_name a "diff_mean" "png") false ddm] ++
           extra ++ [prints "Mean SNR" (snr (cm_buf truth) diff_mean); prints "MAP SNR" (snr (cm_buf truth) diff)].

(** figures numbered from 0 *)
Definition numbered (a : plot_args) (name : string) (ds : list drawing) : list output :=
  map (fun i => OMap (file_name a (name ++ NilZero.string_of_uint (Nat.to_uint i))%string "png") false (nth i ds (mkDrawing 0 [] None None)))
      (seq 0 (length ds)).
(** the files written with --save_npy *)
Definition saved_arrays (a : plot_args) (mean MAP ci diff diff_mean : vec) : list output :=
  if pa_npy a then [saves (file_name a "mean" "npy") mean; saves (file_name a "MAP" "npy") MAP; saves (file_name a "CI" "npy") ci;
                    saves (file_name a "diff" "npy") diff; saves (file_name a "diff_mean" "npy") diff_mean]
  else [].
(** the largest value of some maps, oversampled; at least 0 *)
Definition common_limit (ws : list map2d) (v : C) : Prop :=
  exists os, Forall2 (fun w o => oversample rfwd rinv (mkCMap (mp_rows w) (mp_cols w) (map RtoC (mp_buf w))) 256 = Ok o) ws os /\
    ((forall o z, In o os -> In z (cm_buf o) -> snd z = 0) -> exists r, v = RtoC r /\ largest (0 :: map fst (List.concat (map cm_buf os))) r).

(** the output of a complete run of phasevel/plot.py *)
Definition phasevel_report (inv fwd : vec -> res vec) (til : tiling) (analysis : vec -> vec * vec) (truth : cmap) (path_matrix : cmat) (data_obs : vec)
    (a : plot_args) (f : results) (outs : list output) : Prop :=
  let L := rs_L f in let npix := (L * (2 * L - 1))%nat in
  exists setting evo MAP wv rows ci mean diff diff_mean c dM dd dci dmean k ws v scales figs pM pm eM em,
    rs_setting f = Some setting /\
    plot_evolution (rs_logpi f) = Ok evo /\ estimates real_part setting inv fwd (pa_burn a) f MAP wv rows /\
    full_shape truth L /\ rows <> [] /\ ranges_of npix rows (1 / 100) ci /\ average_of npix rows mean /\
    difference (cm_buf truth) MAP diff /\ difference (cm_buf truth) mean diff_mean /\ largest_magnitude diff c /\
    drawn L MAP centre0 dM /\ drawn L (magnitudes diff) (from0 (Some (RtoC (Rmin c 100)))) dd /\
    drawn L (map RtoC ci) (from0 None) dci /\ drawn L mean centre0 dmean /\
    (** the ranges of the parameters themselves, scale by scale *)
    ((0 <= pa_burn a)%Z -> wavelet_credible_interval_range
       (mkChain (map (map Re) (skipn (Z.to_nat (pa_burn a)) (rs_chain f))) k) L til (1 / 20) = Ok ws) /\
    (exists X, In X (rs_chain f) /\ k = length X) /\ common_limit ws v /\
    Forall2 (fun w d => exists after, plot_map rfwd rinv (mkCMap (mp_rows w) (mp_cols w) (map RtoC (mp_buf w))) (from0 (Some v)) = Ok (d, after)) ws scales /\
    plot_wavelet_maps (fun _ v m => let* d := plot_map rfwd rinv m (mkArgs None v true true None) in Ok (fst d))
      L til (fst (analysis mean)) (snd (analysis mean)) true (Some "Mean solution"%string) None = Ok figs /\
    Path_forward path_matrix MAP = Ok pM /\ Path_forward path_matrix mean = Ok pm /\
    relative_error data_obs pM eM /\ relative_error data_obs pm em /\
    outs = [OEvolution (file_name a "evolution" "png") evo; OMap (file_name a "MAP" "png") false dM; OMap (file_name a "diff" "png") false dd;
            OSample (file_name a "MAP_wvlt" "png") (map Re wv, map Im wv); OMap (file_name a "ci_map" "png") false dci] ++
           numbered a "ci_map_scale" scales ++ [OMap (file_name a "mean" "png") false dmean] ++ numbered a "mean_scale" figs ++
           [prints "MAP SNR" (snr (cm_buf truth) diff); prints "Mean SNR" (snr (cm_buf truth) diff_mean); prints "MAP R2E" eM; prints "Mean R2E" em] ++
           saved_arrays a mean MAP (map RtoC ci) diff diff_mean.
End Reports.
