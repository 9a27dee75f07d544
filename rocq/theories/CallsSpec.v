(** Specification vocabulary for operator calls (C57).  It mentions the four
    user methods and the random generator, not the loops of Calls.v. *)
From Coq Require Import List ZArith Bool Reals String.
From Verif Require Import PyBase CVec Forward Sampler SamplerSpec Mcmc Calls.
Import ListNotations.

(** the methods of the forward operator and of the prior *)
Inductive meth := MForward | MGradg | MProxf | MPrior.

(** [logs tr R0 u]: [tr] reads off an environment the list of the method calls
    made so far, oldest first; drawing random numbers adds nothing to it.  What
    else the methods do is arbitrary. *)
Definition logs {E} (tr : E -> list meth) (R0 : rng E) (u : user_ops E) : Prop :=
  (forall x e, tr (snd (u_forward u x e)) = tr e ++ [MForward]) /\
  (forall x e, tr (snd (u_gradg u x e)) = tr e ++ [MGradg]) /\
  (forall x e, tr (snd (u_proxf u x e)) = tr e ++ [MProxf]) /\
  (forall x e, tr (snd (u_prior u x e)) = tr e ++ [MPrior]) /\
  (forall n e, tr (snd (g_randn R0 n e)) = tr e) /\
  (forall n e, tr (snd (g_laplace R0 n e)) = tr e) /\
  (forall e, tr (snd (g_rand R0 e)) = tr e).

(** [private pi R0 f pr R1 u]: the results of the methods [u] are those of the
    pure operators [f], [pr], and their effects leave alone the generator, which
    is the part [pi] of the environment ([R1] draws from it as [R0] does). *)
Definition private {E G} (pi : E -> G) (R0 : rng G) (f : forward_op) (pr : prior_obj)
           (R1 : rng E) (u : user_ops E) : Prop :=
  (forall x e, fst (u_forward u x e) = fo_forward f x /\ pi (snd (u_forward u x e)) = pi e) /\
  (forall x e, fst (u_gradg u x e) = fo_gradg f x /\ pi (snd (u_gradg u x e)) = pi e) /\
  (forall x e, fst (u_proxf u x e) = pr_proxf pr x /\ pi (snd (u_proxf u x e)) = pi e) /\
  (forall x e, fst (u_prior u x e) = pr_prior pr x /\ pi (snd (u_prior u x e)) = pi e) /\
  (forall n e, fst (g_randn R1 n e) = fst (g_randn R0 n (pi e)) /\
               pi (snd (g_randn R1 n e)) = snd (g_randn R0 n (pi e))) /\
  (forall n e, fst (g_laplace R1 n e) = fst (g_laplace R0 n (pi e)) /\
               pi (snd (g_laplace R1 n e)) = snd (g_laplace R0 n (pi e))) /\
  (forall e, fst (g_rand R1 e) = fst (g_rand R0 (pi e)) /\
             pi (snd (g_rand R1 e)) = snd (g_rand R0 (pi e))).

(** The calls of the first [n] iterations of a chain that makes the calls [blk]
    in each iteration, and one to prior.prior in those on the thinning grid. *)
Inductive calls_of (blk : list meth) (nburn ngap : Z) : nat -> list meth -> Prop :=
| calls_none : calls_of blk nburn ngap 0 []
| calls_saved n l : calls_of blk nburn ngap n l -> on_grid nburn ngap (Z.of_nat n) ->
    calls_of blk nburn ngap (S n) (l ++ blk ++ [MPrior])
| calls_skipped n l : calls_of blk nburn ngap n l -> ~ on_grid nburn ngap (Z.of_nat n) ->
    calls_of blk nburn ngap (S n) (l ++ blk).

(** the calls of one evaluation of the gradient of the log posterior *)
Definition gradient : list meth := [MProxf; MForward; MGradg].

(** the calls of an s-stage step that evaluates stage s-1 twice and stage s-2
    once more *)
Fixpoint stage_calls (s : nat) : list meth :=
  match s with
  | O => []
  | S s1 => match s1 with
            | O => gradient
            | S s2 => stage_calls s1 ++ gradient ++ stage_calls s1 ++ stage_calls s2
            end
  end.

(** number of calls of one method *)
Definition meth_eq_dec (a b : meth) : {a = b} + {a <> b}.
Proof. decide equality. Defined.
Definition calls (m : meth) (l : list meth) : nat := count_occ meth_eq_dec l m.

(** [l] is a beginning of [full] *)
Definition begins (l full : list meth) : Prop := exists r, full = l ++ r.
