(** What the scripts read from the parsed command line: the arguments of
    run_experiment (ExpRun.v) and of the plot scripts (ExpPlot.v).  A number
    given as float or int is the same real number here, except for --eta,
    where the type matters (prior.py: np.power with an int exponent). *)
From Coq Require Import List ZArith Bool Reals String.
From Verif Require Import PyBase Prior ExpRun ExpPlot Args.
Import ListNotations.
Open Scope string_scope.

Section ArgsRun.
Notation namespace := (@namespace R).
Notation value := (@value R).
Definition as_str (v : value) : option string := match v with AStr s => Some s | _ => None end.
Definition as_num (v : value) : option R := match v with AInt z => Some (IZR z) | AFloat x => Some x | _ => None end.
Definition as_int (v : value) : option Z := match v with AInt z => Some z | _ => None end.
Definition as_bool (v : value) : option bool := match v with ABool b => Some b | _ => None end.
Definition as_nat (v : value) : option nat := match v with AInt z => if (0 <=? z)%Z then Some (Z.to_nat z) else None | _ => None end.
Definition as_expo (v : value) : option expo := match v with AInt z => Some (EInt z) | AFloat x => Some (EFloat x) | _ => None end.
(** args.name *)
Definition attr {A} (f : value -> option A) (ns : namespace) (d : string) : option A :=
  match get_attr ns d with Some v => f v | None => None end.
Notation "'get' x <- e ; k" := (match e with Some x => k | None => None end) (at level 200, x pattern, k at level 200).

(** args.algo, args.setting, args.outdir, args.jobid, args.delta, args.mu and
    args.L: earthtopography/main.py:72-76, 127-129, 155-173,
    phasevel/main.py:123-126, 150-152, 175-195, weaklensing/main.py:85-88,
    114-116, 136-154 *)
Definition cli_of (ns : namespace) : option cli :=
  get a <- attr as_str ns "algo"; get s <- attr as_str ns "setting"; get o <- attr as_str ns "outdir"; get j <- attr as_str ns "jobid";
  get d <- attr as_num ns "delta"; get m <- attr as_num ns "mu"; get l <- attr as_nat ns "L";
  Some (mkCli a s o j d m l).
(** args.makenoise, args.sigma and args.scaleafrica, earthtopography/main.py:75,
    89-105, 182; [draw] is the noise that is drawn *)
Definition topo_of (draw : list R) (ns : namespace) : option experiment :=
  get n <- attr as_bool ns "makenoise"; get s <- attr as_num ns "sigma"; get z <- attr as_int ns "scaleafrica";
  Some (Topo (if n then Some draw else None) s z).
(** args.nsim and args.eta, phasevel/main.py:138, 168, 203-204 *)
Definition phase_of (ns : namespace) : option experiment :=
  get n <- attr as_bool ns "nsim"; get e <- attr as_expo ns "eta"; Some (Phase n e).
(** args.directory, args.suffix, args.burn, args.save_npy and, in
    weaklensing/plot.py, args.no_mask: earthtopography/plot.py:41, 106, 152,
    phasevel/plot.py:42, 97, 168, weaklensing/plot.py:46, 79, 128, 197 *)
Definition plot_args_of (masked : bool) (ns : namespace) : option plot_args :=
  get d <- attr as_str ns "directory"; get s <- attr as_str ns "suffix"; get b <- attr as_int ns "burn"; get y <- attr as_bool ns "save_npy";
  get m <- (if masked then attr as_bool ns "no_mask" else Some false);
  Some (mkPlotArgs d s b y m).
End ArgsRun.
