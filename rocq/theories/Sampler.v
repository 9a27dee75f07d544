(** Model of the three sampler loops, /repo/pxmcmc/mcmc.py.

    The loops are polymorphic in
      V  model vectors,  D  data vectors,  K  scalars (log posterior etc.),
      P  step sizes,     G  state of the (global) random generator,
      I  the type of the [start_point] argument of [run].
    What the loops call (forward operator, prior, chain step, scalar arithmetic)
    is the record [ops]; the concrete numpy versions are in Mcmc.v.
    Simplifications: operators are pure functions that may raise; they do not
    themselves draw random numbers or touch the sampler object. *)
From Coq Require Import List ZArith Bool String.
From Verif Require Import PyBase.
Import ListNotations.
Open Scope Z_scope.

(** Outcome of a loop on fuel.  [NoFuel] means the given number of iterations
    was used up with the loop still running: it is neither a return nor an
    exception. *)
Inductive outcome (A : Type) := Ret (a : A) | Exn (e : exn) | NoFuel.
Arguments Ret {A} a.
Arguments Exn {A} e.
Arguments NoFuel {A}.

(** Scheduling parameters of PxMCMCParams, mcmc.py:21-43 (the numerical ones
    lmda, delta, mu, s, complex live in Mcmc.v).  nburn and verbosity may be
    integral floats in Python; they are integers here. *)
Record params := {
  p_nsamples : Z;
  p_nburn : Z;
  p_ngap : Z;
  p_verbosity : Z;
  p_track : list string
}.

Section Generic.
Context {V D K P G I : Type}.

(** Everything the loops call. *)
Record ops := {
  o_init : I -> G -> res V * G;             (* choice of X_curr, mcmc.py:98-109 *)
  o_forward : V -> res D;                   (* self.forward.forward *)
  o_gradg : D -> res V;                     (* self.forward.calc_gradg *)
  o_proxf : V -> res V;                     (* self.prior.proxf *)
  o_logpi : V -> D -> res (K * K * K);      (* self.logpi: (logPi, L2, prior) *)
  o_step : P -> V -> V -> V -> G -> res V * G; (* MYULA.chain_step(X, proxf, gradg), uses self.delta and draws *)
  o_skstep : P -> V -> G -> res V * G;      (* SKROCK.chain_step(X) *)
  o_logtrans : P -> V -> V -> V -> V -> res K; (* calc_logtransition(X1, X2, proxf, gradg) *)
  o_logrand : G -> K * G;                   (* np.log(np.random.rand()) *)
  o_kadd : K -> K -> K;
  o_ksub : K -> K -> K;
  o_kltb : K -> K -> bool;                  (* < *)
  o_tune : P -> Z -> Z -> P;                (* new self.delta from (old, acceptance_trace[i], i) *)
  o_rowV : V -> res V;                      (* cast/shape check on storing a chain row *)
  o_rowD : D -> res D;                      (* the same for a predictions row *)
  o_rowK : K -> K;                          (* the same for a scalar entry *)
  o_zeroV : V; o_zeroD : D; o_zeroK : K     (* initial contents of np.zeros *)
}.

(** What is printed. *)
Inductive event :=
| EvProgress (i : Z) (lp l2 pr : K) (acc : option (list Z)) (* _print_progress; acc: the trace whose mean is printed *)
| EvBurning
| EvDone.

(** The attributes of a sampler object that the loops read or write.
    [None] = the attribute does not exist (hasattr is False). *)
Record inst := mkInst {
  i_logPi : option (list K);
  i_L2s : option (list K);
  i_priors : option (list K);
  i_preds : option (list D);
  i_chain : option (list V);
  i_acc : option (list Z);       (* acceptance_trace *)
  i_deltas : option (list P);    (* deltas_trace *)
  i_delta : P;                   (* self.delta *)
  i_out : list event             (* stdout, oldest first *)
}.

Record world := mkWorld { w_inst : inst; w_rng : G }.

(** State + exceptions.  State changes made before an exception persist. *)
Definition M (A : Type) := world -> world * outcome A.
Definition ret {A} (a : A) : M A := fun w => (w, Ret a).
Definition throw {A} (e : exn) : M A := fun w => (w, Exn e).
Definition no_fuel {A} : M A := fun w => (w, NoFuel).
Definition bind {A B} (m : M A) (k : A -> M B) : M B := fun w =>
  match m w with
  | (w', Ret a) => k a w'
  | (w', Exn e) => (w', Exn e)
  | (w', NoFuel) => (w', NoFuel)
  end.
Definition lift {A} (r : res A) : M A :=
  match r with Ok a => ret a | Raise e => throw e end.
Definition with_rng {A} (f : G -> res A * G) : M A := fun w =>
  let (r, g') := f (w_rng w) in lift r (mkWorld (w_inst w) g').
Definition get_inst : M inst := fun w => (w, Ret (w_inst w)).
Definition put_inst (s : inst) : M unit := fun w => (mkWorld s (w_rng w), Ret tt).

Notation "'do' x <- m ; k" := (bind m (fun x => k))
  (at level 200, x pattern, m at level 100, k at level 200, right associativity).

Definition set_logPi v s := mkInst v (i_L2s s) (i_priors s) (i_preds s) (i_chain s) (i_acc s) (i_deltas s) (i_delta s) (i_out s).
Definition set_L2s v s := mkInst (i_logPi s) v (i_priors s) (i_preds s) (i_chain s) (i_acc s) (i_deltas s) (i_delta s) (i_out s).
Definition set_priors v s := mkInst (i_logPi s) (i_L2s s) v (i_preds s) (i_chain s) (i_acc s) (i_deltas s) (i_delta s) (i_out s).
Definition set_preds v s := mkInst (i_logPi s) (i_L2s s) (i_priors s) v (i_chain s) (i_acc s) (i_deltas s) (i_delta s) (i_out s).
Definition set_chain v s := mkInst (i_logPi s) (i_L2s s) (i_priors s) (i_preds s) v (i_acc s) (i_deltas s) (i_delta s) (i_out s).
Definition set_acc v s := mkInst (i_logPi s) (i_L2s s) (i_priors s) (i_preds s) (i_chain s) v (i_deltas s) (i_delta s) (i_out s).
Definition set_deltas v s := mkInst (i_logPi s) (i_L2s s) (i_priors s) (i_preds s) (i_chain s) (i_acc s) v (i_delta s) (i_out s).
Definition set_delta v s := mkInst (i_logPi s) (i_L2s s) (i_priors s) (i_preds s) (i_chain s) (i_acc s) (i_deltas s) v (i_out s).
Definition set_out v s := mkInst (i_logPi s) (i_L2s s) (i_priors s) (i_preds s) (i_chain s) (i_acc s) (i_deltas s) (i_delta s) v.

Definition print (e : event) : M unit :=
  do s <- get_inst; put_inst (set_out (i_out s ++ [e]) s).

Variable o : ops.

(** PxMCMC._initialise_tracking_arrays, mcmc.py:113-128, called from
    PxMCMC.__init__ (mcmc.py:56-61) with self.delta = mcmcparams.delta.
    np.zeros raises ValueError for a negative nsamples.
    Unknown names in [track] are ignored. *)
Definition np_zeros {A} (n : Z) (z : A) : res (list A) :=
  if n <? 0 then Raise ValueError else Ok (repeat z (Z.to_nat n)).

Definition opt_array {A} (b : bool) (n : Z) (z : A) : res (option (list A)) :=
  if b then (let* l := np_zeros n z in Ok (Some l)) else Ok None.

Definition new_sampler (prm : params) (delta : P) : res inst :=
  let n := p_nsamples prm in
  let tr := p_track prm in
  let* lp := opt_array (str_in "logposterior" tr) n (o_zeroK o) in
  let* pd := opt_array (str_in "predictions" tr) n (o_zeroD o) in
  let* ch := opt_array (str_in "chain" tr) n (o_zeroV o) in
  let* l2 := opt_array (str_in "L2" tr) n (o_zeroK o) in
  let* pr := opt_array (str_in "prior" tr) n (o_zeroK o) in
  Ok (mkInst lp l2 pr pd ch None None delta []).

(** One guarded store [if hasattr(self, name): self.name[j] = v]. *)
Definition store {A} (get : inst -> option (list A)) (set : option (list A) -> inst -> inst)
           (j : Z) (v : res A) : M unit :=
  do s <- get_inst;
  match get s with
  | None => ret tt
  | Some l => do a <- lift v; do l' <- lift (py_setitem l j a); put_inst (set (Some l') s)
  end.

(** PxMCMC._tracking, mcmc.py:130-140 (same order of stores). *)
Definition tracking (j : Z) (X : V) (preds : D) (logPi L2 prior : K) : M unit :=
  do _ <- store i_logPi set_logPi j (Ok (o_rowK o logPi));
  do _ <- store i_L2s set_L2s j (Ok (o_rowK o L2));
  do _ <- store i_priors set_priors j (Ok (o_rowK o prior));
  do _ <- store i_preds set_preds j (o_rowD o preds);
  store i_chain set_chain j (o_rowV o X).

(** Reading [self.name[k]]: AttributeError when the attribute is absent. *)
Definition read_attr {A} (get : inst -> option (list A)) (k : Z) : M A :=
  do s <- get_inst;
  match get s with
  | None => throw AttributeError
  | Some l => lift (py_index l k)
  end.

(** The call [self._print_progress(j-1, self.logPi[j-1], L2=self.L2s[j-1],
    prior=self.priors[j-1])], mcmc.py:172-177 and 328-333; the printed counter
    is i+1 of _print_progress, mcmc.py:91-95. *)
Definition print_saved (j : Z) : M unit :=
  do lp <- read_attr i_logPi (j - 1);
  do l2 <- read_attr i_L2s (j - 1);
  do pr <- read_attr i_priors (j - 1);
  print (EvProgress (j - 1 + 1) lp l2 pr None).

(** PxMCMC._initial_sample, mcmc.py:97-111: pick X_curr, then predict. *)
Definition initial_sample (start : I) : M (V * D) :=
  do X <- with_rng (o_init o start);
  do d <- lift (o_forward o X);
  ret (X, d).

Variable prm : params.

(** The save test [self.ngap == 0 or (i - self.nburn) % self.ngap == 0],
    mcmc.py:167, 263, 323. *)
Definition grid_hit (i : Z) : bool :=
  (p_ngap prm =? 0) || ((i - p_nburn prm) mod (p_ngap prm) =? 0).

(** [self.verbosity > 0 and (i + 1) % self.verbosity == 0] *)
Definition progress_due (i : Z) : bool :=
  (0 <? p_verbosity prm) && ((i + 1) mod (p_verbosity prm) =? 0).

(** ** MYULA.run, mcmc.py:150-183 *)

(** one pass through the while body, mcmc.py:158-181; returns (j, X_curr, curr_preds) *)
Definition myula_body (i j : Z) (X : V) (preds : D) : M (Z * V * D) :=
  do gradg <- lift (o_gradg o preds);
  do proxf <- lift (o_proxf o X);
  do s <- get_inst;
  do X_prop <- with_rng (o_step o (i_delta s) X proxf gradg);
  do prop_preds <- lift (o_forward o X_prop);
  if p_nburn prm <=? i then
    do j' <- (if grid_hit i then
                do t <- lift (o_logpi o X_prop prop_preds);
                let '(logPi, L2, prior) := t in
                do _ <- tracking j X_prop prop_preds logPi L2 prior;
                ret (j + 1)
              else ret j);
    do _ <- (if progress_due i then print_saved j' else ret tt);
    ret (j', X_prop, prop_preds)
  else
    do _ <- (if progress_due i then print EvBurning else ret tt);
    ret (j, X_prop, prop_preds).

Fixpoint myula_loop (fuel : nat) (i j : Z) (X : V) (preds : D) : M unit :=
  if j <? p_nsamples prm then
    match fuel with
    | O => no_fuel
    | S f => do r <- myula_body i j X preds;
             let '(j', X', preds') := r in
             myula_loop f (i + 1) j' X' preds'
    end
  else print EvDone.

Definition myula_run (fuel : nat) (start : I) : M unit :=
  do r <- initial_sample start;
  let '(X, preds) := r in
  myula_loop fuel 0 0 X preds.

(** ** PxMALA.run, mcmc.py:218-275 *)

(** the variables carried from one iteration to the next *)
Record mala_state := mkMala {
  m_X : V; m_preds : D; m_gradg : V; m_proxf : V;
  m_logpi : K; m_L2 : K; m_prior : K
}.

(** [self.acceptance_trace.append(a)], mcmc.py:254, 256.  run has created the
    list (mcmc.py:222), so the attribute exists; absent is an AttributeError. *)
Definition append_acc (a : Z) : M unit :=
  do s <- get_inst;
  match i_acc s with
  | None => throw AttributeError
  | Some l => put_inst (set_acc (Some (l ++ [a])) s)
  end.

(** PxMALA._tune_delta(i), mcmc.py:277-279 (arithmetic in [o_tune]) *)
Definition tune_delta (i : Z) : M unit :=
  do a <- read_attr i_acc i;
  do s <- get_inst;
  put_inst (set_delta (o_tune o (i_delta s) a i) s).

(** [self.deltas_trace.append(self.delta)], mcmc.py:260 *)
Definition append_delta : M unit :=
  do s <- get_inst;
  match i_deltas s with
  | None => throw AttributeError
  | Some l => put_inst (set_deltas (Some (l ++ [i_delta s])) s)
  end.

(** one pass through the while body, mcmc.py:231-274 *)
Definition pxmala_body (tune : bool) (i j : Z) (c : mala_state) : M (Z * mala_state) :=
  do s <- get_inst;
  do X_prop <- with_rng (o_step o (i_delta s) (m_X c) (m_proxf c) (m_gradg c));
  do prop_preds <- lift (o_forward o X_prop);
  do gradg_prop <- lift (o_gradg o prop_preds);
  do proxf_prop <- lift (o_proxf o X_prop);
  do logtransXcXp <- lift (o_logtrans o (i_delta s) (m_X c) X_prop (m_proxf c) (m_gradg c));
  do logtransXpXc <- lift (o_logtrans o (i_delta s) X_prop (m_X c) proxf_prop gradg_prop);
  do t <- lift (o_logpi o X_prop prop_preds);
  let '(logpiXp, L2Xp, priorXp) := t in
  let logalpha :=
    o_ksub o (o_ksub o (o_kadd o logtransXpXc logpiXp) logtransXcXp) (m_logpi c) in
  do logu <- with_rng (fun g => let (u, g') := o_logrand o g in (Ok u, g'));
  let accept := o_kltb o logu logalpha in
  do c' <- (if accept then
              do _ <- append_acc 1;
              ret (mkMala X_prop prop_preds gradg_prop proxf_prop logpiXp L2Xp priorXp)
            else
              do _ <- append_acc 0;
              ret c);
  do _ <- (if tune then
             do _ <- tune_delta i; append_delta
           else ret tt);
  do j' <- (if p_nburn prm <=? i then
              if grid_hit i && accept then
                do _ <- tracking j (m_X c') (m_preds c') (m_logpi c') (m_L2 c') (m_prior c');
                ret (j + 1)
              else ret j
            else ret j);
  do _ <- (if progress_due i then
             do s' <- get_inst;
             print (EvProgress (j' - 1 + 1) (m_logpi c') (m_L2 c') (m_prior c') (i_acc s'))
           else ret tt);
  ret (j', c').

Fixpoint pxmala_loop (tune : bool) (fuel : nat) (i j : Z) (c : mala_state) : M unit :=
  if j <? p_nsamples prm then
    match fuel with
    | O => no_fuel
    | S f => do r <- pxmala_body tune i j c;
             let '(j', c') := r in
             pxmala_loop tune f (i + 1) j' c'
    end
  else print EvDone.

Definition pxmala_run (tune : bool) (fuel : nat) (start : I) : M unit :=
  do s <- get_inst;
  do _ <- put_inst (set_acc (Some []) s);
  do s <- get_inst;
  do _ <- put_inst (set_deltas (Some [i_delta s]) s);
  do r <- initial_sample start;
  let '(X, preds) := r in
  do gradg <- lift (o_gradg o preds);
  do proxf <- lift (o_proxf o X);
  do t <- lift (o_logpi o X preds);
  let '(logpiXc, L2Xc, priorXc) := t in
  pxmala_loop tune fuel 0 0 (mkMala X preds gradg proxf logpiXc L2Xc priorXc).

(** ** SKROCK.run, mcmc.py:308-336 *)

(** one pass through the while body, mcmc.py:316-334 *)
Definition skrock_body (i j : Z) (X : V) (preds : D) : M (Z * V * D) :=
  do s <- get_inst;
  do X_prop <- with_rng (o_skstep o (i_delta s) X);
  do prop_preds <- lift (o_forward o X_prop);
  do j' <- (if p_nburn prm <=? i then
              if grid_hit i then
                do t <- lift (o_logpi o X_prop prop_preds);
                let '(logPi, L2, prior) := t in
                do _ <- tracking j X_prop prop_preds logPi L2 prior;
                ret (j + 1)
              else ret j
            else ret j);
  do _ <- (if progress_due i then print_saved j' else ret tt);
  ret (j', X_prop, prop_preds).

Fixpoint skrock_loop (fuel : nat) (i j : Z) (X : V) (preds : D) : M unit :=
  if j <? p_nsamples prm then
    match fuel with
    | O => no_fuel
    | S f => do r <- skrock_body i j X preds;
             let '(j', X', preds') := r in
             skrock_loop f (i + 1) j' X' preds'
    end
  else print EvDone.

Definition skrock_run (fuel : nat) (start : I) : M unit :=
  do r <- initial_sample start;
  let '(X, preds) := r in
  skrock_loop fuel 0 0 X preds.

End Generic.

Arguments ops : clear implicits.
Arguments inst : clear implicits.
Arguments world : clear implicits.
Arguments event : clear implicits.
Arguments mala_state : clear implicits.
