(** The numerical parts of /repo/pxmcmc/mcmc.py and forward.py on a heap of
    arrays: Mcmc.v and Forward.v with array objects.  Every arithmetic expression
    makes a new array; the sparse matrix invcov is a value (nothing writes to it).
    numpy may reuse the buffer of an unnamed intermediate result; no one else can
    see that buffer, so this makes no difference. *)
From Coq Require Import List ZArith Lia Bool Reals Lra String.
From Coquelicot Require Import Coquelicot.
From Verif Require Import PyBase CVec Thresh Prior Forward Sampler Mcmc Arrays HSampler.
Import ListNotations.
Notation length := List.length.
Open Scope R_scope.

(** transform and measurement objects acting on arrays *)
Record htransform := mkHT { ht_inverse : aref -> H aref; ht_inverse_adjoint : aref -> H aref }.
Record hmeas := mkHM { hm_forward : aref -> H aref; hm_adjoint : aref -> H aref }.
(** the attributes of a ForwardOperator, forward.py:24-34; data is kept, not copied *)
Record hforward := mkHF {
  hf_data : aref;
  hf_invcov : cmat;
  hf_setting : string;
  hf_transform : option htransform;
  hf_meas : option hmeas;
  hf_nparams : option nat }.

(** forward, forward.py:36-46, 60-64 *)
Definition h_fo_forward (f : hforward) (X : aref) : H aref :=
  if String.eqb (hf_setting f) "analysis" then
    let! m := hlift (attr (hf_meas f)) in hm_forward m X
  else
    let! m := hlift (attr (hf_meas f)) in
    let! t := hlift (attr (hf_transform f)) in
    let! y := ht_inverse t X in hm_forward m y.
(** _gradg_analysis, forward.py:66-69 *)
Definition h_gradg_analysis (f : hforward) (preds : aref) : H aref :=
  let! m := hlift (attr (hf_meas f)) in
  let! r := h_bin np_sub preds (hf_data f) in
  let! x := values r in
  let! w := hlift (np_dot (hf_invcov f) x) in
  let! w := alloc w in
  hm_adjoint m w.
(** calc_gradg, forward.py:48-58 and 71-72 *)
Definition h_fo_gradg (f : hforward) (preds : aref) : H aref :=
  if String.eqb (hf_setting f) "analysis" then h_gradg_analysis f preds
  else let! t := hlift (attr (hf_transform f)) in
       let! g := h_gradg_analysis f preds in ht_inverse_adjoint t g.

(** what a sampler calls on its prior *)
Record hprior_obj := mkHPr { hpr_prior : aref -> H R; hpr_proxf : aref -> H aref }.

Section HNum.
Context {G : Type}.
Variable R0 : rng G.
Variable f : hforward.
Variable pr : hprior_obj.
Variable q : numparams.

(** logpi, mcmc.py:71-82 *)
Definition h_logpi (X preds : aref) : H (C * C * C) :=
  let! diff := h_bin np_sub (hf_data f) preds in
  let! x := values diff in
  let! wd := hlift (np_dot (hf_invcov f) x) in
  let! wd := alloc wd in
  let! x := values diff in
  let! y := values wd in
  let! L2 := hlift (np_vdot x y) in
  let! p := hpr_prior pr X in
  hret ((RtoC (- n_mu q * p) - L2)%C, L2, RtoC p).

(** _gradlogpi, mcmc.py:84-89, called without preds *)
Definition h_gradlogpi (X : aref) : H aref :=
  let! px := hpr_proxf pr X in
  let! d := h_bin np_sub X px in
  let! gradf := h_un (vscal (RtoC (/ n_lmda q))) d in
  let! preds := h_fo_forward f X in
  let! gradg := h_fo_gradg f preds in
  let! ngradf := h_un vopp gradf in
  h_bin np_sub ngradf gradg.

(** the argument of run: None, an array object (with its shape), anything else *)
Inductive hstart := HStartNone | HStartArray (shape : list nat) (r : aref) | HStartOther.
(** _initial_sample, mcmc.py:97-109: the array itself, not a copy *)
Definition h_choose_start (st : hstart) (g : G) : H aref * G :=
  match st with
  | HStartNone =>
      match hf_nparams f with
      | None => (hlift (Raise AttributeError), g)
      | Some n => let (X, g') := draw (g_laplace R0) (n_complex q) n g in (alloc X, g')
      end
  | HStartArray shape r =>
      if negb (Nat.eqb (length shape) 1) then (hlift (Raise TypeError), g)
      else match hf_nparams f with
           | None => (hlift (Raise AttributeError), g)
           | Some n => if Nat.eqb (length (r_idx r)) n then (hret r, g) else (hlift (Raise ValueError), g)
           end
  | HStartOther => (hlift (Raise TypeError), g)
  end.

(** MYULA.chain_step, mcmc.py:185-201 *)
Definition h_chain_step (delta : R) (X proxf gradg : aref) (g : G) : H aref * G :=
  match hf_nparams f with
  | None => (hlift (Raise AttributeError), g)
  | Some n =>
      let (w, g') := draw (g_randn R0) (n_complex q) n g in
      ((let! w := alloc w in
        if Req_EM_T (n_lmda q) 0 then hlift (Raise ZeroDivisionError) else
        let! a := h_un (vscal (RtoC (1 - delta / n_lmda q))) X in
        let! b := h_un (vscal (RtoC (delta / n_lmda q))) proxf in
        let! a := h_bin np_add a b in
        let! b := h_un (vscal (RtoC delta)) gradg in
        let! a := h_bin np_sub a b in
        let! b := h_un (vscal (RtoC (sqrt (2 * delta)))) w in
        h_bin np_add a b), g')
  end.

(** calc_logtransition, mcmc.py:281-289 *)
Definition h_logtransition (delta : R) (X1 X2 proxf gradg : aref) : H C :=
  let! d := h_bin np_sub X1 proxf in
  let! d := h_un (vscal (RtoC (/ n_lmda q))) d in
  let! d := h_un vopp d in
  let! gl := h_bin np_sub d gradg in
  let! e := h_bin np_sub X2 X1 in
  let! gl := h_un (vscal (RtoC (delta / 2))) gl in
  let! r := h_bin np_sub e gl in
  let! r2 := h_un (map (fun z => z * z)%C) r in
  let! v := values r2 in
  let s := csum v in
  hret (RtoC (- (1 / 2 * delta)) * (s * s))%C.

(** _K_recursion, mcmc.py:349-368; the stage before last is computed twice *)
Fixpoint h_K_recursion (delta : R) (X : aref) (s : nat) (Z : aref) : H aref :=
  match s with
  | O => hret X
  | S s1 =>
      match s1 with
      | O =>
          let! c := hlift (coef q 1) in let '(mu, nu, k) := c in
          let! z := h_un (vscal (RtoC (nu * sqrt (2 * delta)))) Z in
          let! y := h_bin np_add X z in
          let! gr := h_gradlogpi y in
          let! gr := h_un (vscal (RtoC (mu * delta))) gr in
          let! a := h_bin np_add X gr in
          let! z := h_un (vscal (RtoC (k * sqrt (2 * delta)))) Z in
          h_bin np_add a z
      | S s2 =>
          let! c := hlift (coef q s) in let '(mu, nu, k) := c in
          let! K1 := h_K_recursion delta X s1 Z in
          let! gr := h_gradlogpi K1 in
          let! gr := h_un (vscal (RtoC (mu * delta))) gr in
          let! K1 := h_K_recursion delta X s1 Z in
          let! K1 := h_un (vscal (RtoC nu)) K1 in
          let! a := h_bin np_add gr K1 in
          let! a := h_un (vshift (RtoC k)) a in
          let! K2 := h_K_recursion delta X s2 Z in
          h_bin np_sub a K2
      end
  end.
(** SKROCK.chain_step, mcmc.py:338-347 *)
Definition h_skrock_step (delta : R) (X : aref) (g : G) : H aref * G :=
  let (Z, g') := draw (g_randn R0) (n_complex q) (length (r_idx X)) g in
  ((let! Z := alloc Z in h_K_recursion delta X (Z.to_nat (n_s q)) Z), g').

Definition h_mcmc_ops : hops G hstart := {|
  ho_init := h_choose_start;
  ho_forward := h_fo_forward f;
  ho_gradg := h_fo_gradg f;
  ho_proxf := hpr_proxf pr;
  ho_logpi := h_logpi;
  ho_step := h_chain_step;
  ho_skstep := h_skrock_step;
  ho_logtrans := h_logtransition |}.
End HNum.
