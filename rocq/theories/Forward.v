(** Model of /repo/pxmcmc/forward.py: ForwardOperator (9-88).  The two
    subclasses (91-162) only choose transform, measurement and nparams; they are
    in Transforms.v, where those objects are modelled. *)
From Coq Require Import List ZArith Lia Bool Reals Lra String.
From Coquelicot Require Import Coquelicot.
From Verif Require Import PyBase CVec RSort Prior.
Import ListNotations.
Open Scope R_scope.

(** The operators used: a transform (transforms.py) and a measurement
    (measurements.py), each a pair of functions. *)
Record transform := mkTransform { t_inverse : vec -> res vec; t_inverse_adjoint : vec -> res vec }.
Record measurement := mkMeas { ms_forward : vec -> res vec; ms_adjoint : vec -> res vec }.

(** A data vector and whether its dtype is complex (np.iscomplexobj). *)
Record dataset := mkData { d_val : vec; d_complex : bool }.

(** Kinds of sig_d:
    [SPy]  Python scalar; numpy's float64 and complex128 are subclasses of
           float and complex (for those a zero gives inf instead of an error);
    [SNp]  any other real numpy scalar (np.float32, np.int64, ...);
    [SVec] 1-D array;  [SMat] 2-D array;  [SNd] array of three or more
           dimensions with the given size. *)
Inductive sigd :=
| SPy (v : C) (cplx : bool)
| SNp (v : R)
| SVec (v : vec) (cplx : bool)
| SMat (A : cmat)
| SNd (size : nat).

(** forward.py:80-82: [var = sig_d ** 2], and for complex data with a real
    variance [var / np.sqrt(2) * (1 + 1j)] *)
Definition variance (dc : bool) (v : C) (cplx : bool) : C :=
  if dc && negb cplx then ((v * v) / RtoC (sqrt 2) * (RtoC 1 + Ci))%C else (v * v)%C.

(** _build_inverse_covariance_matrix, forward.py:74-88.  [inv] is
    scipy.sparse.linalg.inv.  A Python scalar 0 raises ZeroDivisionError in
    [1 / var], unless the product with np.sqrt(2) above has made it a numpy
    scalar; divisions by zero of numpy scalars and arrays give inf or nan, which
    is not modelled (here they give 0). *)
Definition build_invcov (inv : cmat -> res cmat) (d : dataset) (s : sigd) : res cmat :=
  let n := List.length (d_val d) in
  match s with
  | SMat A => if Nat.eqb (m_rows A) (m_cols A) then inv A else Raise ValueError
  | SPy v c =>
      let var := variance (d_complex d) v c in
      if negb (d_complex d && negb c) && Reqb (Cmod var) 0 then Raise ZeroDivisionError
      else Ok (scaled_identity n (RtoC 1 / var)%C)
  | SNp v =>
      (* stays a numpy scalar that is not a Python float, unless it was made complex *)
      if d_complex d then Ok (scaled_identity n (RtoC 1 / variance true (RtoC v) false)%C)
      else Raise TypeError
  | SVec v c =>
      let var := map (fun x => variance (d_complex d) x c) v in
      if Nat.eqb (List.length var) n then Ok (diags (map (fun x => RtoC 1 / x)%C var)) else Raise TypeError
  | SNd _ => Raise TypeError
  end.

(** the attributes, forward.py:24-34; None = attribute missing *)
Record forward_op := mkFwd {
  fo_data : dataset;
  fo_invcov : cmat;
  fo_setting : string;
  fo_transform : option transform;
  fo_measurement : option measurement;
  fo_nparams : option nat }.

(** ForwardOperator.__init__, forward.py:21-34 *)
Definition Forward_init (inv : cmat -> res cmat) (d : dataset) (s : sigd) (setting : string)
           (tr : option transform) (ms : option measurement) (np : option nat) : res forward_op :=
  let* ic := build_invcov inv d s in
  if known_setting setting then Ok (mkFwd d ic setting tr ms np) else Raise ValueError.

(** attribute access *)
Definition attr {A} (o : option A) : res A := match o with Some a => Ok a | None => Raise AttributeError end.

(** _forward_analysis, _forward_synthesis, forward, forward.py:36-46, 60-64 *)
Definition fo_forward (f : forward_op) (X : vec) : res vec :=
  if String.eqb (fo_setting f) "analysis" then
    let* m := attr (fo_measurement f) in ms_forward m X
  else
    let* m := attr (fo_measurement f) in
    let* t := attr (fo_transform f) in
    let* y := t_inverse t X in ms_forward m y.

(** _gradg_analysis, forward.py:66-69 *)
Definition gradg_analysis (f : forward_op) (preds : vec) : res vec :=
  let* m := attr (fo_measurement f) in
  let* r := np_sub preds (d_val (fo_data f)) in
  let* w := np_dot (fo_invcov f) r in
  ms_adjoint m w.
(** calc_gradg, forward.py:48-58 and _gradg_synthesis, 71-72 *)
Definition fo_gradg (f : forward_op) (preds : vec) : res vec :=
  if String.eqb (fo_setting f) "analysis" then gradg_analysis f preds
  else let* t := attr (fo_transform f) in
       let* g := gradg_analysis f preds in t_inverse_adjoint t g.
