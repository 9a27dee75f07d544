(** Model of the run-and-save part of the three scripts in /repo/experiments:
    earthtopography/main.py (122-184), phasevel/main.py (145-205) and
    weaklensing/main.py (109-162).  The forward operator is given (ExpData.v
    builds it); command line arguments are taken as parsed (Args.v parses them); datetime is a pair
    of strings.  The float literals nburn=10e6 and verbosity=1e3, 5e3 are
    integers here.  print is ignored except the samplers' own output. *)
From Coq Require Import List ZArith Lia Bool Reals Lra String.
From Coquelicot Require Import Coquelicot.
From Verif Require Import PyBase CVec Thresh Utils Prior Forward Sampler Mcmc Objects.
Import ListNotations.
Open Scope R_scope.
Notation length := List.length.
Notation append := String.append.

(** attribute values that the sampler loops do not need *)
Inductive xval :=
| XReal (r : R) | XStr (s : string) | XBool (b : bool) | XArr (v : list R)
| XForward (f : forward_op) | XPrior (p : prior_obj).
Definition pv : Type := pyval vec vec C R xval.
Definition vreal (r : R) : pv := VOther (XReal r).
Definition vstr (s : string) : pv := VOther (XStr s).
Definition vbool (b : bool) : pv := VOther (XBool b).

(** which script, with the arguments only it has: the noise array (None: the
    integer 0), --sigma and --scaleafrica; --nsim and --eta *)
Inductive experiment :=
| Topo (noise : option (list R)) (sigma : R) (scaleafrica : Z)
| Phase (nsim : bool) (eta : expo)
| Lens.
(** the arguments all scripts have *)
Record cli := mkCli { c_algo : string; c_setting : string; c_outdir : string; c_jobid : string;
                      c_delta : R; c_mu : R; c_L : nat }.

(** wavelet parameter B; J_min is 2.  earthtopography/main.py:73-74,
    phasevel/main.py:124-125, weaklensing/main.py:86-87 *)
Definition exp_B (e : experiment) : pv := match e with Topo _ _ _ => vreal (3 / 2) | _ => VInt 2 end.
Definition J_min : Z := 2.

(** default of PxMCMCParams(track=...), mcmc.py:32 *)
Definition default_track : list string := ["logposterior"; "L2"; "prior"; "chain"]%string.
(** lmda: earthtopography/main.py:128, phasevel/main.py:151, weaklensing/main.py:115 *)
Definition exp_lmda (e : experiment) (c : cli) : R := match e with Topo _ _ _ => 1 / 1000000 | _ => c_delta c / 2 end.
(** params = PxMCMCParams(...): earthtopography/main.py:123-133,
    phasevel/main.py:146-156, weaklensing/main.py:110-119 (s is the default 1) *)
Definition exp_params (e : experiment) (c : cli) : dict pv :=
  match e with
  | Topo _ _ _ => params_dict (vreal (exp_lmda e c)) (VStep (c_delta c)) (vreal (c_mu c)) (VInt 10) 100 0 500 (vbool false) 5000 default_track
  | Phase _ _ => params_dict (vreal (exp_lmda e c)) (VStep (c_delta c)) (vreal (c_mu c)) (VInt 10) 2000 0 500 (vbool false) 1000 default_track
  | Lens => params_dict (vreal (exp_lmda e c)) (VStep (c_delta c)) (vreal (c_mu c)) (VInt 1) 5000 10000000 500 (vbool false) 1000 default_track
  end.

(** the regulariser: earthtopography/main.py:140-148, phasevel/main.py:160-169,
    weaklensing/main.py:122-130.  [inv], [iadj] are transform.inverse and
    inverse_adjoint; [til] is the wavelet tiling of (B, L, J_min), [til0] the
    one _calculate_wavelet_weights uses *)
Definition exp_prior (e : experiment) (c : cli) (inv iadj : vec -> res vec) (til0 til : tiling) : res prior_obj :=
  let T := TScal (exp_lmda e c * c_mu c) in
  match e with
  | Phase _ eta => let* p := Power_init (c_setting c) inv iadj T (c_L c) til0 til eta in Ok (mkPrior (Power_prior p) (S2_proxf p))
  | _ => let* p := S2_init (c_setting c) inv iadj T (c_L c) til in Ok (mkPrior (S2_prior p) (S2_proxf p))
  end.

(** if args.algo == "myula": ... else: raise ValueError.
    earthtopography/main.py:155-162, phasevel/main.py:175-182, weaklensing/main.py:136-143 *)
Definition exp_kind (algo : string) : option sampler_kind :=
  if String.eqb algo "myula" then Some KMyula
  else if String.eqb algo "pxmala" then Some (KPxmala true)
  else if String.eqb algo "skrock" then Some KSkrock
  else None.

(** filename = f"{args.algo}_{args.setting}_{NOW...}_{args.jobid}" *)
Definition exp_filename (c : cli) (now : string) : string :=
  append (c_algo c) (append "_" (append (c_setting c) (append "_" (append now (append "_" (c_jobid c)))))).

(** the keyword arguments of save_mcmc, in order: earthtopography/main.py:170-184,
    phasevel/main.py:192-205, weaklensing/main.py:151-162 *)
Definition exp_kwargs (e : experiment) (c : cli) (nparams : nat) (elapsed : string) : dict pv :=
  match e with
  | Topo noise sigma scaleafrica =>
      [("L", VInt (Z.of_nat (c_L c))); ("B", exp_B e); ("J_min", VInt J_min); ("nparams", VInt (Z.of_nat nparams));
       ("noise", match noise with Some v => VOther (XArr v) | None => VInt 0 end); ("setting", vstr (c_setting c));
       ("sigma", vreal sigma); ("scaleafrica", VInt scaleafrica); ("time", vstr elapsed)]%string
  | Phase nsim eta =>
      [("L", VInt (Z.of_nat (c_L c))); ("B", exp_B e); ("J_min", VInt J_min); ("nparams", VInt (Z.of_nat nparams));
       ("setting", vstr (c_setting c)); ("time", vstr elapsed); ("nsim", vbool nsim);
       ("eta", match eta with EInt z => VInt z | EFloat r => vreal r end)]%string
  | Lens =>
      [("L", VInt (Z.of_nat (c_L c))); ("B", exp_B e); ("J_min", VInt J_min); ("nparams", VInt (Z.of_nat nparams));
       ("setting", vstr (c_setting c)); ("time", vstr elapsed)]%string
  end.

(** the numerical attributes of a sampler object *)
Definition real_at (d : dict pv) (k : string) : R := match dget d k with Some (VOther (XReal r)) => r | _ => 0 end.
Definition int_at (d : dict pv) (k : string) : Z := match dget d k with Some (VInt z) => z | _ => 0%Z end.
Definition bool_at (d : dict pv) (k : string) : bool := match dget d k with Some (VOther (XBool b)) => b | _ => false end.
Definition num_of_dict (d : dict pv) : numparams :=
  mkNum (real_at d "lmda") (real_at d "mu") (int_at d "s") (bool_at d "complex").

Section Run.
Context {G B : Type}.
Variables (R0 : rng G) (h5_open : string -> res unit) (h5_data : bool -> pv -> res B) (h5_attr : pv -> res B).
Definition fsys : Type := @filesys B.

(** the parts of construction that can fail after PxMCMC.__init__: the SKROCK
    coefficients, mcmc.py:303-306 *)
Definition kind_init (k : sampler_kind) (q : numparams) : res unit :=
  match k with KSkrock => let* _ := skrock_init q in Ok tt | _ => Ok tt end.

(** from the construction of params to the end of the script; the sampler's
    loop is stopped after [fuel] iterations *)
Definition run_experiment (e : experiment) (c : cli) (f : forward_op) (inv iadj : vec -> res vec) (til0 til : tiling)
    (now elapsed : string) (fuel : nat) (w : pyworld vec vec C R G xval) (fs : fsys)
  : pyworld vec vec C R G xval * fsys * outcome unit :=
  let lp := length (py_heap w) in
  let w0 := mkPy (py_heap w ++ [exp_params e c]) (py_rng w) (py_out w) in
  match exp_prior e c inv iadj til0 til with
  | Raise ex => (w0, fs, Exn ex)
  | Ok pr =>
    match fo_nparams f with
    | None => (w0, fs, Exn AttributeError)
    | Some n =>
      match exp_kind (c_algo c) with
      | None => (w0, fs, Exn ValueError)
      | Some k =>
        let mko d := mcmc_ops R0 f pr (num_of_dict d) in
        match PxMCMC_init (RtoC 0) (vzero (length (d_val (fo_data f)))) (vzero n) (py_heap w0)
                (VOther (XForward f)) (VOther (XPrior pr)) lp with
        | Raise ex => (w0, fs, Exn ex)
        | Ok (h, self) =>
          match kind_init k (match hget h self with Some d => num_of_dict d | None => num_of_dict [] end) with
          | Raise ex => (w0, fs, Exn ex)
          | Ok _ =>
            let (w1, r) := run_sampler mko (mkPy h (py_rng w) (py_out w)) self k fuel StartNone in
            match r with
            | Ret _ =>
              let (fs', r') := save_mcmc h5_open h5_data h5_attr fs (py_heap w1) self lp (c_outdir c)
                                 (exp_filename c now) (exp_kwargs e c n elapsed) in
              (w1, fs', match r' with Ok _ => Ret tt | Raise ex => Exn ex end)
            | Exn ex => (w1, fs, Exn ex)
            | NoFuel => (w1, fs, NoFuel)
            end
          end
        end
      end
    end
  end.
End Run.
