(** The operators of /repo/pxmcmc/measurements.py and transforms.py on a heap of
    arrays.  pyssht and pys2let functions, like the sparse products, read their
    arguments and return new arrays. *)
From Coq Require Import List ZArith Lia Bool Reals Lra String.
From Coquelicot Require Import Coquelicot.
From Verif Require Import PyBase CVec Thresh Utils Measure Prior Forward Transforms Arrays.
Import ListNotations.
Notation length := List.length.
Open Scope R_scope.

(** a call that reads an array and returns a new one *)
Definition h_call (f : vec -> res vec) (X : aref) : H aref :=
  let! x := values X in let! y := hlift (f x) in alloc y.

(** ** IdentityTransform, transforms.py:36-56: the argument itself *)
Definition h_IdT (X : aref) : H aref := hret X.

(** ** Identity and PathIntegral, measurements.py:43-56 and 69-83 *)
Definition h_Identity_forward (ndata npix : nat) (X : aref) : H aref :=
  if Nat.eqb (length (r_idx X)) npix then h_call (np_dot (eye ndata npix)) X else hlift (Raise AssertionError).
Definition h_Identity_adjoint (ndata npix : nat) (Y : aref) : H aref :=
  if Nat.eqb (length (r_idx Y)) ndata then h_call (np_dot (getH (eye ndata npix))) Y else hlift (Raise AssertionError).
Definition h_Path_forward (P : cmat) (X : aref) : H aref :=
  if Nat.eqb (length (r_idx X)) (m_cols P) then h_call (np_dot P) X else hlift (Raise AssertionError).
Definition h_Path_adjoint (P : cmat) (Y : aref) : H aref :=
  if Nat.eqb (length (r_idx Y)) (m_rows P) then h_call (np_dot (getH P)) Y else hlift (Raise AssertionError).

(** ** WeakLensingHarmonic *)
(** the view out[:k] *)
Definition head_view (out : aref) (k : nat) : aref := mkRef (r_cell out) (firstn k (r_idx out)).
(** [out[:4] = 0], in place *)
Definition h_zero_head (out : aref) : H unit := fun h =>
  (Ok tt, wr h (head_view out 4) (vzero (length (r_idx (head_view out 4))))).
(** harmonic_mapping and harmonic_inverse_mapping, measurements.py:162-182; the
    kernel is an array that nothing writes to, kept as a value *)
Definition h_harmonic_mapping (w : wlh) (flm : aref) : H aref :=
  let! out := h_call (fun x => np_mul x (map RtoC (wl_kernel w))) flm in
  let! _ := h_zero_head out in
  hret out.
Definition h_harmonic_inverse_mapping (w : wlh) (flm : aref) : H aref :=
  let! out := h_call (fun x => np_div x (map RtoC (wl_kernel w))) flm in
  let! _ := h_zero_head out in
  hret out.

(** ** WeakLensing *)
(** mask_adjoint, measurements.py:263-280: zeros, then [f[mask] = x] *)
Definition h_mask_adjoint (L : nat) (m : bmask) (x : aref) : H aref :=
  let! f := alloc (repeat (RtoC 0) (L * (2 * L - 1))) in
  let! xv := values x in
  let! fv := values f in
  let! y := hlift (bool_assign (RtoC 0) fv m xv) in
  let! _ := (fun h => (Ok tt, wr h f y)) in
  hret f.
(** forward, measurements.py:209-230: reshape gives a view of the same elements,
    boolean indexing and flatten new arrays *)
Definition h_WL_forward (S : ssht) (w : wl) (kappa : aref) : H aref :=
  let L := w_L w in
  if Nat.eqb (length (r_idx kappa)) (L * (2 * L - 1)) then
    let! klm := h_call (ss_forward S L 0) kappa in
    let! glm := h_harmonic_mapping (w_base w) klm in
    let! gamma := h_call (ss_inverse S L 2) glm in
    let! gamma := h_call (mask_forward L (w_mask w) [L; (2 * L - 1)%nat]) gamma in
    let! gamma := h_call (cov_weight w) gamma in
    np_array gamma
  else hlift (Raise ValueError).
(** adjoint, measurements.py:218-219 and 232-241 *)
Definition h_WL_adjoint (S : ssht) (w : wl) (gamma : aref) : H aref :=
  let L := w_L w in
  let! gamma := h_call (cov_weight w) gamma in
  let! gamma := h_mask_adjoint L (w_mask w) gamma in
  let! glm := h_call (ss_inverse_adjoint S L 2) gamma in
  let! klm := h_harmonic_mapping (w_base w) glm in
  let! kappa := h_call (ss_forward_adjoint S L 0) klm in
  np_array kappa.

(** ** SphericalWaveletTransform *)
(** a pys2let function returning (wav, scal), then flatten_mlm, utils.py:11-22 *)
Definition h_analysis (f : vec -> res (vec * vec)) (X : aref) : H aref :=
  let! X := np_array X in
  let! x := values X in
  let! ws := hlift (f x) in
  let! wav := alloc (fst ws) in
  let! scal := alloc (snd ws) in
  let! s := values scal in
  let! w := values wav in
  alloc (s ++ w).
(** expand_mlm with nscalcoefs (two views, utils.py:49-51), astype copies, then a
    pys2let function of both *)
Definition h_synthesis (nscal : nat) (f : vec -> vec -> res vec) (X : aref) : H aref :=
  let wav := mkRef (r_cell X) (py_slice (r_idx X) (Some (Z.of_nat nscal)) None) in
  let scal := mkRef (r_cell X) (py_slice (r_idx X) None (Some (Z.of_nat nscal))) in
  let! scal := np_array scal in
  let! wav := np_array wav in
  let! w := values wav in
  let! s := values scal in
  let! y := hlift (f w s) in
  alloc y.
(** forward, inverse, inverse_adjoint, forward_adjoint, transforms.py:102-154 *)
Definition h_SWT_forward (t : swt) := h_analysis (sw_fwd t (sw_params t)).
Definition h_SWT_inverse (t : swt) := h_synthesis (sw_nscal t) (sw_inv t (sw_params t)).
Definition h_SWT_inverse_adjoint (t : swt) := h_analysis (sw_inv_adj t (sw_params t)).
Definition h_SWT_forward_adjoint (t : swt) := h_synthesis (sw_nscal t) (sw_fwd_adj t (sw_params t)).
