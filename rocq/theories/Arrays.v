(** A heap of numpy arrays, with views, and the functions of the library that
    write to arrays or are called with the caller's arrays:
    /repo/pxmcmc/utils.py soft, hard, _sign (lines 55-88); prior.py (8-111).
    A cell is the buffer of an array; an array object is a cell with the list of
    buffer positions it shows (so slices and other views alias their base).  Real
    entries are complex numbers with imaginary part 0. *)
From Coq Require Import List ZArith Lia Bool Reals Lra String.
From Coquelicot Require Import Coquelicot.
From Verif Require Import PyBase CVec RSort Thresh Utils Quad Prior.
Import ListNotations.
Notation length := List.length.
Open Scope R_scope.

Definition aheap := list vec.
Record aref := mkRef { r_cell : nat; r_idx : list nat }.

Definition cell (h : aheap) (c : nat) : vec := nth c h [].
(** current values of an array *)
Definition rd (h : aheap) (r : aref) : vec := map (fun i => nth i (cell h (r_cell r)) (RtoC 0)) (r_idx r).

Fixpoint scatter (buf : vec) (idx : list nat) (v : vec) : vec :=
  match idx, v with
  | i :: idx', x :: v' => scatter (upd buf i x) idx' v'
  | _, _ => buf
  end.
(** write the values v through r *)
Definition wr (h : aheap) (r : aref) (v : vec) : aheap := upd h (r_cell r) (scatter (cell h (r_cell r)) (r_idx r) v).

(** computations on the heap: changes made before an exception persist *)
Definition H (A : Type) := aheap -> res A * aheap.
Definition hret {A} (a : A) : H A := fun h => (Ok a, h).
Definition hbind {A B} (m : H A) (k : A -> H B) : H B := fun h =>
  match m h with (Ok a, h1) => k a h1 | (Raise e, h1) => (Raise e, h1) end.
Notation "'let!' x := m 'in' k" := (hbind m (fun x => k))
  (at level 200, x pattern, m at level 100, k at level 200, right associativity).
Definition hlift {A} (r : res A) : H A := fun h => (r, h).
Definition values (r : aref) : H vec := fun h => (Ok (rd h r), h).
(** a new array *)
Definition alloc (v : vec) : H aref := fun h => (Ok (mkRef (length h) (seq 0 (length v))), h ++ [v]).

(** [np.array(X)] and [np.abs(X)]: new arrays *)
Definition np_array (X : aref) : H aref := let! x := values X in alloc x.
Definition np_abs (X : aref) : H aref := let! x := values X in alloc (map RtoC (vabs x)).
(** [X[mask] = v], in place *)
Definition set_where (X : aref) (mask : list bool) (v : C) : H unit :=
  let! x := values X in
  let! y := hlift (mask_assign x mask v) in
  fun h => (Ok tt, wr h X y).

(** a threshold: Python scalar or array *)
Inductive hthr := HScal (t : R) | HArr (r : aref).
Definition thr_of (T : hthr) : H thr :=
  match T with
  | HScal t => hret (TScal t)
  | HArr r => let! v := values r in hret (TVec (map fst v))
  end.

(** _sign, utils.py:84-88, statement by statement *)
Definition h_sign (z : aref) : H aref :=
  let! ab := np_abs z in
  let! a := values ab in
  let! _ := set_where z (map (fun x => Reqb (fst x) 0) a) (RtoC 0) in
  let! _ := set_where ab (map (fun x => Reqb (fst x) 0) a) (RtoC 1) in
  let! zv := values z in
  let! a := values ab in
  let! q := hlift (np_div zv a) in
  alloc q.

(** soft, utils.py:55-67 *)
Definition h_soft (X : aref) (T : hthr) : H aref :=
  let! X := np_array X in
  let! s := h_sign X in
  let! a := np_abs X in
  let! av := values a in
  let! tv := thr_of T in
  let! d := hlift (thr_bin Rminus (map fst av) tv) in
  let! d := alloc (map RtoC d) in
  let! sv := values s in
  let! dv := values d in
  let! t := hlift (np_mul sv dv) in
  let! t := alloc t in
  let! a := np_abs X in
  let! av := values a in
  let! tv := thr_of T in
  let! m := hlift (thr_bin Rleb (map fst av) tv) in
  let! _ := set_where t m (RtoC 0) in
  hret t.

(** hard, utils.py:70-81: X itself is returned *)
Definition h_hard (X : aref) (T : R) : H aref :=
  let! a := np_abs X in
  let! av := values a in
  let! srt := alloc (map RtoC (rsort (map fst av))) in
  let! x := values X in
  let! sv := values srt in
  let! thresh_val := hlift (py_index (map fst sv) (- Rtrunc (T * INR (length x)))) in
  let! a := np_abs X in
  let! av := values a in
  let! _ := set_where X (map (fun v => Rltb (fst v) thresh_val) av) (RtoC 0) in
  hret X.

(** [T *= w] for a float array w, prior.py:81 and 108: an array is overwritten *)
Definition h_imul (T : hthr) (w : list R) : H hthr :=
  match T with
  | HScal t => let! r := alloc (map RtoC (map (Rmult t) w)) in hret (HArr r)
  | HArr r =>
      let! v := values r in
      let! t' := hlift (thr_imul (TVec (map fst v)) w) in
      match t' with
      | TVec v' => fun h => (Ok (HArr r), wr h r (map RtoC v'))
      | TScal _ => hlift (Raise TypeError)
      end
  end.

(** a prior object: setting, operators acting on arrays, threshold, prior.py:23-26 *)
Record hprior := mkHP { hp_setting : string; hp_fwd : aref -> H aref; hp_adj : aref -> H aref; hp_T : hthr }.
(** L1.__init__, prior.py:21-26: T is kept, not copied *)
Definition h_L1_init (setting : string) (fwd adj : aref -> H aref) (T : hthr) : H hprior :=
  if known_setting setting then hret (mkHP setting fwd adj T) else hlift (Raise AssertionError).
(** S2_Wavelets_L1: the base object and map_weights (a new array that nothing
    writes to, kept as a value) *)
Record hs2 := mkHS2 { hs_prior : hprior; hs_weights : list R }.
(** S2_Wavelets_L1.__init__, prior.py:67-81 *)
Definition h_S2_init (setting : string) (fwd adj : aref -> H aref) (T : hthr) (L : nat) (til : tiling) : H hs2 :=
  let! p := h_L1_init setting fwd adj T in
  if String.eqb setting "synthesis" then
    let! bls := hlift (multires_bandlimits L til) in
    let! w := hlift (quad_weights bls) in
    let! T' := h_imul (hp_T p) w in
    hret (mkHS2 (mkHP setting fwd adj T') w)
  else hlift (Raise NotImplementedError).
(** S2_Wavelets_L1_Power_Weights.__init__, prior.py:101-108: T is multiplied in
    place a second time *)
Definition h_Power_init (setting : string) (fwd adj : aref -> H aref) (T : hthr) (L : nat)
                        (til0 til : tiling) (eta : expo) : H hs2 :=
  let! b := h_S2_init setting fwd adj T L til in
  let! s := hlift (scaling_weights til) in
  let! ww := hlift (wavelet_weights L til0 til eta) in
  match ww with
  | [] => hlift (Raise ValueError)
  | _ =>
      let w := (s ++ List.concat (map snd ww))%list in
      if all_same (map fst ww) then hlift (Raise TypeError)
      else let! T' := h_imul (hp_T (hs_prior b)) w in
           hret (mkHS2 (mkHP setting fwd adj T') w)
  end.

(** elementwise binary operation, and multiplication by a scalar: new arrays *)
Definition h_bin (f : vec -> vec -> res vec) (a b : aref) : H aref :=
  let! x := values a in let! y := values b in
  let! z := hlift (f x y) in alloc z.
Definition h_un (f : vec -> vec) (a : aref) : H aref := let! x := values a in alloc (f x).
(** proxf, prior.py:37-53 *)
Definition h_proxf (p : hprior) (X : aref) : H aref :=
  if String.eqb (hp_setting p) "synthesis" then h_soft X (hp_T p)
  else
    let! a := hp_adj p X in
    let! s := h_soft a (hp_T p) in
    let! a' := hp_adj p X in
    let! d := h_bin np_sub s a' in
    let! f := hp_fwd p d in
    h_bin np_add X f.
(** L1.prior, prior.py:28-35 *)
Definition h_prior (X : aref) : H R :=
  let! a := np_abs X in let! v := values a in hret (rsum (map fst v)).
(** S2_Wavelets_L1.prior, prior.py:83-84 *)
Definition h_S2_prior (p : hs2) (X : aref) : H R :=
  let! x := values X in
  let! y := hlift (np_mul (map RtoC (hs_weights p)) x) in
  let! y := alloc y in
  h_prior y.
(** S2_Wavelets_L1_Power_Weights.prior, prior.py:110-111 *)
Definition h_Power_prior (p : hs2) (X : aref) : H R :=
  let! x := values X in
  let! y := hlift (np_mul (map RtoC (hs_weights p)) x) in
  let! y := alloc y in
  h_S2_prior p y.
