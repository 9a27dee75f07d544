(** Model of /repo/pxmcmc/transforms.py (36-166) and of the two operators of
    /repo/pxmcmc/forward.py (91-162).  The wavelet library pys2let is a record of
    arbitrary functions; arrays are 1-D and [astype(complex)] keeps values. *)
From Coq Require Import List ZArith Lia Bool Reals Lra String.
From Coquelicot Require Import Coquelicot.
From Verif Require Import PyBase CVec Utils Measure Prior Forward.
Import ListNotations.
Open Scope R_scope.
Notation length := List.length.

(** ** IdentityTransform, transforms.py:36-56 *)
Definition IdT_forward (X : vec) : res vec := Ok X.
Definition IdT_forward_adjoint (X : vec) : res vec := Ok X.
Definition IdT_inverse (X : vec) : res vec := Ok X.
Definition IdT_inverse_adjoint (X : vec) : res vec := Ok X.

(** ** pys2let and pyssht *)

(** the keyword arguments self.params, transforms.py:80-87 *)
Record s2params := mkS2P { q_B : R; q_L : nat; q_Jmin : Z; q_N : Z; q_spin : Z; q_upsample : Z }.

(** pys2let_j_max and the eight transforms; analyses return (wav, scal) *)
Record s2let := mkS2let {
  sl_jmax : R -> nat -> Z -> Z;
  analysis_px2wav : s2params -> vec -> res (vec * vec);
  analysis_adjoint_wav2px : s2params -> vec -> vec -> res vec;
  synthesis_wav2px : s2params -> vec -> vec -> res vec;
  synthesis_adjoint_px2wav : s2params -> vec -> res (vec * vec);
  analysis_lm2lmn : s2params -> vec -> res (vec * vec);
  analysis_adjoint_lmn2lm : s2params -> vec -> vec -> res vec;
  synthesis_lmn2lm : s2params -> vec -> vec -> res vec;
  synthesis_adjoint_lm2lmn : s2params -> vec -> res (vec * vec) }.

(** pyssht.sample_length(L) and pys2let.mw_size(L) for MW sampling *)
Definition sample_length (L : nat) : nat := (L * (2 * L - 1))%nat.
Definition mw_size (L : nat) : nat := (L * (2 * L - 1))%nat.

(** ** SphericalWaveletTransform *)

(** the attributes set by __init__ *)
Record swt := mkSWT {
  sw_params : s2params;
  sw_J_max : Z; sw_nscales : Z;
  sw_fwd : s2params -> vec -> res (vec * vec);
  sw_fwd_adj : s2params -> vec -> vec -> res vec;
  sw_inv : s2params -> vec -> vec -> res vec;
  sw_inv_adj : s2params -> vec -> res (vec * vec);
  sw_nwav : nat; sw_nscal : nat; sw_ncoefs : nat }.

(** _get_ncoefs, transforms.py:156-166; [junk] gives the contents of np.empty *)
Definition get_ncoefs (lib : s2let) (junk : nat -> C) (p : s2params) : res (nat * nat * nat) :=
  let f_mw := map junk (seq 0 (sample_length (q_L p))) in
  let* ws := analysis_px2wav lib p f_mw in
  Ok (length (fst ws), length (snd ws), (length (fst ws) + length (snd ws))%nat).

(** __init__, transforms.py:71-100 *)
Definition SWT_init (lib : s2let) (junk : nat -> C) (L : nat) (B : R) (J_min dirs spin : Z) (harmonic : bool) : res swt :=
  let J_max := sl_jmax lib B L J_min in
  let p := mkS2P B L J_min dirs spin 0 in
  let* n := get_ncoefs lib junk p in
  let '(nwav, nscal, ncoefs) := n in
  Ok (if harmonic then
        mkSWT p J_max (J_max - J_min + 1) (analysis_lm2lmn lib) (analysis_adjoint_lmn2lm lib)
              (synthesis_lmn2lm lib) (synthesis_adjoint_lm2lmn lib) nwav nscal ncoefs
      else
        mkSWT p J_max (J_max - J_min + 1) (analysis_px2wav lib) (analysis_adjoint_wav2px lib)
              (synthesis_wav2px lib) (synthesis_adjoint_px2wav lib) nwav nscal ncoefs).

(** forward, transforms.py:102-112 *)
Definition SWT_forward (t : swt) (X : vec) : res vec :=
  let* ws := sw_fwd t (sw_params t) X in
  Ok (flatten_mlm (Arr1 (fst ws)) (snd ws)).
(** a 1-D array *)
Definition as_1d (a : nda) : vec := match a with Arr1 v => v | Arr2 _ _ b => b end.
(** inverse, transforms.py:114-127 *)
Definition SWT_inverse (t : swt) (X : vec) : res vec :=
  let* ws := expand_mlm X None (Some (Z.of_nat (sw_nscal t))) false in
  sw_inv t (sw_params t) (as_1d (fst ws)) (snd ws).
(** inverse_adjoint, transforms.py:129-139 *)
Definition SWT_inverse_adjoint (t : swt) (X : vec) : res vec :=
  let* ws := sw_inv_adj t (sw_params t) X in
  Ok (flatten_mlm (Arr1 (fst ws)) (snd ws)).
(** forward_adjoint, transforms.py:141-154 *)
Definition SWT_forward_adjoint (t : swt) (X : vec) : res vec :=
  let* ws := expand_mlm X None (Some (Z.of_nat (sw_nscal t))) false in
  sw_fwd_adj t (sw_params t) (as_1d (fst ws)) (snd ws).

(** ** The operators of forward.py *)

Definition swt_transform (t : swt) : transform := mkTransform (SWT_inverse t) (SWT_inverse_adjoint t).

(** forward.py:111-114 and 150-153 *)
Definition choose_nparams (setting : string) (L : nat) (t : swt) : nat :=
  if String.eqb setting "analysis" then mw_size L else sw_ncoefs t.

(** SphericalWaveletTransformOperator.__init__, forward.py:101-123 *)
Definition SWTO_init (lib : s2let) (junk : nat -> C) (inv : cmat -> res cmat) (d : dataset) (s : sigd) (setting : string)
           (L : nat) (B : R) (J_min dirs spin : Z) : res forward_op :=
  let* t := SWT_init lib junk L B J_min dirs spin false in
  let n := length (d_val d) in
  let m := mkMeas (Identity_forward n (mw_size L)) (Identity_adjoint n (mw_size L)) in
  Forward_init inv d s setting (Some (swt_transform t)) (Some m) (Some (choose_nparams setting L t)).

(** PathIntegralOperator.__init__, forward.py:140-162 *)
Definition PIO_init (lib : s2let) (junk : nat -> C) (inv : cmat -> res cmat) (P : cmat) (d : dataset) (s : sigd)
           (setting : string) (L : nat) (B : R) (J_min dirs spin : Z) : res forward_op :=
  let* t := SWT_init lib junk L B J_min dirs spin false in
  let m := mkMeas (Path_forward P) (Path_adjoint P) in
  Forward_init inv d s setting (Some (swt_transform t)) (Some m) (Some (choose_nparams setting L t)).
