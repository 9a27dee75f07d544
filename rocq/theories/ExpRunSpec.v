(** Vocabulary for C51: what the three scripts are meant to run and to save,
    written as tables, independently of ExpRun.v's dictionaries. *)
From Coq Require Import List ZArith Bool Reals String.
From Coquelicot Require Import Coquelicot.
From Verif Require Import PyBase CVec Prior Forward Sampler Mcmc P_Mcmc Objects ObjSpec ExpRun.
Import ListNotations.
Open Scope R_scope.

Definition samples_of (e : experiment) : nat := match e with Topo _ _ _ => 100 | Phase _ _ => 2000 | Lens => 5000 end.
Definition burn_of (e : experiment) : Z := match e with Lens => 10000000 | _ => 0 end.
Definition stages_of (e : experiment) : Z := match e with Lens => 1 | _ => 10 end.
Definition report_of (e : experiment) : Z := match e with Topo _ _ _ => 5000 | _ => 1000 end.
Definition lambda_of (e : experiment) (delta : R) : R := match e with Topo _ _ _ => 1 / 1000000 | _ => delta / 2 end.
(** iterations a MYULA or SKROCK run takes *)
Definition iterations (e : experiment) : Z := match e with Topo _ _ _ => 49501 | Phase _ _ => 999501 | Lens => 12499501 end.

(** the arrays a default PxMCMCParams asks for *)
Definition tracked : list string := ["logposterior"; "L2"; "prior"; "chain"]%string.
Definition script_params (e : experiment) : params :=
  {| p_nsamples := Z.of_nat (samples_of e); p_nburn := burn_of e; p_ngap := 500; p_verbosity := report_of e; p_track := tracked |}.
Definition script_num (e : experiment) (c : cli) : numparams :=
  mkNum (lambda_of e (c_delta c)) (c_mu c) (stages_of e) false.

(** the file written *)
Definition result_path (c : cli) (now : string) : string :=
  path_join (c_outdir c) (c_algo c ++ "_" ++ c_setting c ++ "_" ++ now ++ "_" ++ c_jobid c ++ ".hdf5")%string.

(** its attributes *)
Definition saved_attr (e : experiment) (c : cli) (nparams : nat) (elapsed k : string) : option pv :=
  let is n := String.eqb k n in
  if is "lmda"%string then Some (vreal (lambda_of e (c_delta c)))
  else if is "delta"%string then Some (VStep (c_delta c))
  else if is "mu"%string then Some (vreal (c_mu c))
  else if is "s"%string then Some (VInt (stages_of e))
  else if is "nsamples"%string then Some (VInt (Z.of_nat (samples_of e)))
  else if is "nburn"%string then Some (VInt (burn_of e))
  else if is "ngap"%string then Some (VInt 500)
  else if is "complex"%string then Some (vbool false)
  else if is "verbosity"%string then Some (VInt (report_of e))
  else if is "track"%string then Some (VNames tracked)
  else if is "L"%string then Some (VInt (Z.of_nat (c_L c)))
  else if is "B"%string then Some (match e with Topo _ _ _ => vreal (3 / 2) | _ => VInt 2 end)
  else if is "J_min"%string then Some (VInt 2)
  else if is "nparams"%string then Some (VInt (Z.of_nat nparams))
  else if is "setting"%string then Some (vstr (c_setting c))
  else if is "time"%string then Some (vstr elapsed)
  else match e with
       | Topo noise sigma africa =>
           if is "noise"%string then Some (match noise with Some v => VOther (XArr v) | None => VInt 0 end)
           else if is "sigma"%string then Some (vreal sigma)
           else if is "scaleafrica"%string then Some (VInt africa) else None
       | Phase nsim eta =>
           if is "nsim"%string then Some (vbool nsim)
           else if is "eta"%string then Some (match eta with EInt z => VInt z | EFloat r => vreal r end) else None
       | Lens => None
       end.




(** the file holds [N] rows, row j describing the sample [X j] of [n] parameters:
    the real parts of sample, log posterior, misfit and prior, all recomputed
    from the sample with the operator and regulariser of the script *)
Definition file_rows {B} (h5_data : bool -> pv -> res B) (file : h5file B) (f : forward_op) (pr : prior_obj) (q : numparams)
    (n N : nat) (X : nat -> vec) : Prop :=
  exists chain lps l2s prs,
    (holds (h5_data false) (h5_datasets file) "chain" (Some (VChain chain)) /\ List.length chain = N) /\
    (holds (h5_data false) (h5_datasets file) "logposterior" (Some (VScal lps)) /\ List.length lps = N) /\
    (holds (h5_data false) (h5_datasets file) "L2s" (Some (VScal l2s)) /\ List.length l2s = N) /\
    (holds (h5_data false) (h5_datasets file) "priors" (Some (VScal prs)) /\ List.length prs = N) /\
    forall j, (j < N)%nat -> exists d lp l2 p row,
      fo_forward f (X j) = Ok d /\ logpi f pr q (X j) d = Ok (lp, l2, p) /\
      nth_error chain j = Some row /\ assigned n real_part (X j) row /\
      nth_error lps j = Some (real_part lp) /\ nth_error l2s j = Some (real_part l2) /\ nth_error prs j = Some (real_part p).
