(** The sampler loops of /repo/pxmcmc/mcmc.py with operators that have effects.

    Sampler.v and Mcmc.v take the forward operator and the prior as pure
    functions.  Here the user's four methods (forward.forward,
    forward.calc_gradg, prior.proxf, prior.prior) run in an environment [E]
    which also holds the random generator: a call may return, raise, count
    itself, fill a cache, draw random numbers or use anything else a method can
    reach.  The sequence of calls is the one of the source, so a value that the
    source computes twice is computed twice here (in _K_recursion).
    Simplifications: attributes of the operators (data, invcov, nparams) are
    fixed during a run, and the methods do not touch the sampler object. *)
From Coq Require Import List ZArith Bool Reals String.
From Coquelicot Require Import Coquelicot.
From Verif Require Import PyBase CVec Thresh Utils Prior Forward Sampler Mcmc.
Import ListNotations.

(** ** the loops *)

Section Generic.
Context {V D K P E I : Type}.

(** what the loops call of the two user objects; [x_logpi] is the sampler's own
    method logpi, which calls prior.prior *)
Record effects := mkEff {
  x_forward : V -> E -> res D * E;               (* self.forward.forward *)
  x_gradg : D -> E -> res V * E;                 (* self.forward.calc_gradg *)
  x_proxf : V -> E -> res V * E;                 (* self.prior.proxf *)
  x_logpi : V -> D -> E -> res (K * K * K) * E   (* self.logpi *)
}.

(** of [o] only the parts that draw (o_init, o_step, o_skstep, o_logrand), the
    scalar arithmetic, calc_logtransition and the array rows are used *)
Variable o : ops V D K P E I.
Variable f : effects.
Variable prm : params.

Local Open Scope Z_scope.
Local Notation "'do' x <- m ; k" := (bind m (fun x => k))
  (at level 200, x pattern, m at level 100, k at level 200, right associativity).
Local Notation M := (@M V D K P E).

(** PxMCMC._initial_sample, mcmc.py:97-111 *)
Definition xinitial_sample (start : I) : M (V * D) :=
  do X <- with_rng (o_init o start);
  do d <- with_rng (x_forward f X);
  ret (X, d).

(** one pass of MYULA.run, mcmc.py:158-181 *)
Definition xmyula_body (i j : Z) (X : V) (preds : D) : M (Z * V * D) :=
  do gradg <- with_rng (x_gradg f preds);
  do proxf <- with_rng (x_proxf f X);
  do s <- get_inst;
  do X_prop <- with_rng (o_step o (i_delta s) X proxf gradg);
  do prop_preds <- with_rng (x_forward f X_prop);
  if p_nburn prm <=? i then
    do j' <- (if grid_hit prm i then
                do t <- with_rng (x_logpi f X_prop prop_preds);
                let '(logPi, L2, prior) := t in
                do _ <- tracking o j X_prop prop_preds logPi L2 prior;
                ret (j + 1)
              else ret j);
    do _ <- (if progress_due prm i then print_saved j' else ret tt);
    ret (j', X_prop, prop_preds)
  else
    do _ <- (if progress_due prm i then print EvBurning else ret tt);
    ret (j, X_prop, prop_preds).

(** the while loop, mcmc.py:157-183 *)
Fixpoint xmyula_loop (fuel : nat) (i j : Z) (X : V) (preds : D) : M unit :=
  if j <? p_nsamples prm then
    match fuel with
    | O => no_fuel
    | S k => do r <- xmyula_body i j X preds;
             let '(j', X', preds') := r in
             xmyula_loop k (i + 1) j' X' preds'
    end
  else print EvDone.

(** MYULA.run, mcmc.py:150-183 *)
Definition xmyula_run (fuel : nat) (start : I) : M unit :=
  do r <- xinitial_sample start;
  let '(X, preds) := r in
  xmyula_loop fuel 0 0 X preds.

(** one pass of PxMALA.run, mcmc.py:231-274 *)
Definition xpxmala_body (tune : bool) (i j : Z) (c : mala_state V D K) : M (Z * mala_state V D K) :=
  do s <- get_inst;
  do X_prop <- with_rng (o_step o (i_delta s) (m_X c) (m_proxf c) (m_gradg c));
  do prop_preds <- with_rng (x_forward f X_prop);
  do gradg_prop <- with_rng (x_gradg f prop_preds);
  do proxf_prop <- with_rng (x_proxf f X_prop);
  do logtransXcXp <- lift (o_logtrans o (i_delta s) (m_X c) X_prop (m_proxf c) (m_gradg c));
  do logtransXpXc <- lift (o_logtrans o (i_delta s) X_prop (m_X c) proxf_prop gradg_prop);
  do t <- with_rng (x_logpi f X_prop prop_preds);
  let '(logpiXp, L2Xp, priorXp) := t in
  let logalpha :=
    o_ksub o (o_ksub o (o_kadd o logtransXpXc logpiXp) logtransXcXp) (m_logpi c) in
  do logu <- with_rng (fun g => let (u, g') := o_logrand o g in (Ok u, g'));
  let accept := o_kltb o logu logalpha in
  do c' <- (if accept then
              do _ <- append_acc 1;
              ret (mkMala X_prop prop_preds gradg_prop proxf_prop logpiXp L2Xp priorXp)
            else
              do _ <- append_acc 0;
              ret c);
  do _ <- (if tune then
             do _ <- tune_delta o i; append_delta
           else ret tt);
  do j' <- (if p_nburn prm <=? i then
              if grid_hit prm i && accept then
                do _ <- tracking o j (m_X c') (m_preds c') (m_logpi c') (m_L2 c') (m_prior c');
                ret (j + 1)
              else ret j
            else ret j);
  do _ <- (if progress_due prm i then
             do s' <- get_inst;
             print (EvProgress (j' - 1 + 1) (m_logpi c') (m_L2 c') (m_prior c') (i_acc s'))
           else ret tt);
  ret (j', c').

(** the while loop, mcmc.py:230-275 *)
Fixpoint xpxmala_loop (tune : bool) (fuel : nat) (i j : Z) (c : mala_state V D K) : M unit :=
  if j <? p_nsamples prm then
    match fuel with
    | O => no_fuel
    | S k => do r <- xpxmala_body tune i j c;
             let '(j', c') := r in
             xpxmala_loop tune k (i + 1) j' c'
    end
  else print EvDone.

(** PxMALA.run, mcmc.py:217-275 *)
Definition xpxmala_run (tune : bool) (fuel : nat) (start : I) : M unit :=
  do s <- get_inst;
  do _ <- put_inst (set_acc (Some []) s);
  do s <- get_inst;
  do _ <- put_inst (set_deltas (Some [i_delta s]) s);
  do r <- xinitial_sample start;
  let '(X, preds) := r in
  do gradg <- with_rng (x_gradg f preds);
  do proxf <- with_rng (x_proxf f X);
  do t <- with_rng (x_logpi f X preds);
  let '(logpiXc, L2Xc, priorXc) := t in
  xpxmala_loop tune fuel 0 0 (mkMala X preds gradg proxf logpiXc L2Xc priorXc).

(** one pass of SKROCK.run, mcmc.py:316-334 *)
Definition xskrock_body (i j : Z) (X : V) (preds : D) : M (Z * V * D) :=
  do s <- get_inst;
  do X_prop <- with_rng (o_skstep o (i_delta s) X);
  do prop_preds <- with_rng (x_forward f X_prop);
  do j' <- (if p_nburn prm <=? i then
              if grid_hit prm i then
                do t <- with_rng (x_logpi f X_prop prop_preds);
                let '(logPi, L2, prior) := t in
                do _ <- tracking o j X_prop prop_preds logPi L2 prior;
                ret (j + 1)
              else ret j
            else ret j);
  do _ <- (if progress_due prm i then print_saved j' else ret tt);
  ret (j', X_prop, prop_preds).

(** the while loop, mcmc.py:315-336 *)
Fixpoint xskrock_loop (fuel : nat) (i j : Z) (X : V) (preds : D) : M unit :=
  if j <? p_nsamples prm then
    match fuel with
    | O => no_fuel
    | S k => do r <- xskrock_body i j X preds;
             let '(j', X', preds') := r in
             xskrock_loop k (i + 1) j' X' preds'
    end
  else print EvDone.

(** SKROCK.run, mcmc.py:308-336 *)
Definition xskrock_run (fuel : nat) (start : I) : M unit :=
  do r <- xinitial_sample start;
  let '(X, preds) := r in
  xskrock_loop fuel 0 0 X preds.
End Generic.
Arguments effects : clear implicits.

(** ** the numerical methods that call the operators *)

(** the four methods a sampler calls of its forward operator and its prior *)
Record user_ops (E : Type) := mkUser {
  u_forward : vec -> E -> res vec * E;
  u_gradg : vec -> E -> res vec * E;
  u_proxf : vec -> E -> res vec * E;
  u_prior : vec -> E -> res R * E
}.
Arguments mkUser {E} _ _ _ _.
Arguments u_forward {E} _ _ _.
Arguments u_gradg {E} _ _ _.
Arguments u_proxf {E} _ _ _.
Arguments u_prior {E} _ _ _.

Section Num.
Context {E : Type}.

(** sequencing of effects, with exceptions *)
Definition ethen {A B} (m : E -> res A * E) (k : A -> E -> res B * E) : E -> res B * E := fun e =>
  let (r, e') := m e in
  match r with Ok a => k a e' | Raise x => (Raise x, e') end.
(** a computation without effects *)
Definition epure {A} (r : res A) : E -> res A * E := fun e => (r, e).
Local Notation "'let!' x := m 'in' k" := (ethen m (fun x => k))
  (at level 200, x pattern, m at level 100, k at level 200).

Variable R0 : rng E.
(** of [fo] only the attributes data, invcov and nparams are used *)
Variable fo : forward_op.
Variable u : user_ops E.
Variable q : numparams.

(** logpi, mcmc.py:71-82 *)
Definition xlogpi (X preds : vec) : E -> res (C * C * C) * E :=
  let! diff := epure (np_sub (d_val (fo_data fo)) preds) in
  let! wd := epure (np_dot (fo_invcov fo) diff) in
  let! L2 := epure (np_vdot diff wd) in
  let! p := u_prior u X in
  epure (Ok ((RtoC (- n_mu q * p) - L2)%C, L2, RtoC p)).

(** _gradlogpi, mcmc.py:84-89 *)
Definition xgradlogpi (X : vec) (preds : option vec) : E -> res vec * E :=
  let! px := u_proxf u X in
  let! d := epure (np_sub X px) in
  let gradf := vscal (RtoC (/ n_lmda q)) d in
  let! preds := match preds with Some p => epure (Ok p) | None => u_forward u X end in
  let! gradg := u_gradg u preds in
  epure (np_sub (vopp gradf) gradg).

(** _K_recursion, mcmc.py:349-368: for s > 1 the stage s-1 is computed once for
    the gradient and again for the sum, then the stage s-2 *)
Fixpoint xK_recursion (delta : R) (X : vec) (s : nat) (Z : vec) : E -> res vec * E :=
  match s with
  | O => epure (Ok X)
  | S s1 =>
      match s1 with
      | O =>
          let! c := epure (coef q 1) in let '(mu, nu, k) := c in
          let! y := epure (np_add X (vscal (RtoC (nu * sqrt (2 * delta))) Z)) in
          let! gr := xgradlogpi y None in
          let! a := epure (np_add X (vscal (RtoC (mu * delta)) gr)) in
          epure (np_add a (vscal (RtoC (k * sqrt (2 * delta))) Z))
      | S s2 =>
          let! c := epure (coef q s) in let '(mu, nu, k) := c in
          let! K1 := xK_recursion delta X s1 Z in
          let! gr := xgradlogpi K1 None in
          let! K1' := xK_recursion delta X s1 Z in
          let! a := epure (np_add (vscal (RtoC (mu * delta)) gr) (vscal (RtoC nu) K1')) in
          let! K2 := xK_recursion delta X s2 Z in
          epure (np_sub (vshift (RtoC k) a) K2)
      end
  end.

(** SKROCK.chain_step, mcmc.py:338-347 *)
Definition xskrock_step (delta : R) (X : vec) : E -> res vec * E := fun e =>
  let (Z, e') := draw (g_randn R0) (n_complex q) (List.length X) e in
  xK_recursion delta X (Z.to_nat (n_s q)) Z e'.

(** ** the instance *)
Definition xeffects : effects vec vec C E :=
  mkEff (u_forward u) (u_gradg u) (u_proxf u) xlogpi.

(** the parts of the pure instance that do not call an operator, with the
    SKROCK step above; [no_prior] stands in the unused fields *)
Definition no_prior : prior_obj := mkPrior (fun _ => Raise AttributeError) (fun _ => Raise AttributeError).
Definition xops : ops vec vec C R E start_point :=
  let b := mcmc_ops R0 fo no_prior q in {|
  o_init := o_init b; o_forward := o_forward b; o_gradg := o_gradg b; o_proxf := o_proxf b;
  o_logpi := o_logpi b; o_step := o_step b; o_skstep := xskrock_step; o_logtrans := o_logtrans b;
  o_logrand := o_logrand b; o_kadd := o_kadd b; o_ksub := o_ksub b; o_kltb := o_kltb b;
  o_tune := o_tune b; o_rowV := o_rowV b; o_rowD := o_rowD b; o_rowK := o_rowK b;
  o_zeroV := o_zeroV b; o_zeroD := o_zeroD b; o_zeroK := o_zeroK b |}.

(** the three run methods *)
Definition myula_with (prm : params) := xmyula_run xops xeffects prm.
Definition pxmala_with (prm : params) := xpxmala_run xops xeffects prm.
Definition skrock_with (prm : params) := xskrock_run xops xeffects prm.
End Num.
