(** When the objects a sampler is given (forward operator, prior, start point)
    are the heap versions of given value-level ones. *)
From Coq Require Import List ZArith Lia Bool Reals Lra String.
From Coquelicot Require Import Coquelicot.
From Verif Require Import PyBase CVec Thresh Prior Forward Sampler Mcmc Arrays ArrSpec HSampler HSampSpec HMcmc.
Import ListNotations.
Notation length := List.length.
Open Scope R_scope.

Definition opt_rel {A B} (Rl : A -> B -> Prop) (a : option A) (b : option B) : Prop :=
  match a, b with Some x, Some y => Rl x y | None, None => True | _, _ => False end.
(** on every heap satisfying P the data array holds the data, and the operators
    compute the given functions, write to nothing that exists, and return a new
    array or one sharing the buffer of their argument *)
Record forward_on_arrays (P : aheap -> Prop) (hf : hforward) (f : forward_op) : Prop := {
  fa_data : forall h, P h -> allocated h (hf_data hf) /\ rd h (hf_data hf) = d_val (fo_data f);
  fa_invcov : hf_invcov hf = fo_invcov f;
  fa_setting : hf_setting hf = fo_setting f;
  fa_nparams : hf_nparams hf = fo_nparams f;
  fa_transform : opt_rel (fun t u => implements P (ht_inverse t) (t_inverse u) /\ implements P (ht_inverse_adjoint t) (t_inverse_adjoint u))
                   (hf_transform hf) (fo_transform f);
  fa_meas : opt_rel (fun t u => implements P (hm_forward t) (ms_forward u) /\ implements P (hm_adjoint t) (ms_adjoint u))
              (hf_meas hf) (fo_measurement f) }.
Record prior_on_arrays (P : aheap -> Prop) (hp : hprior_obj) (p : prior_obj) : Prop := {
  pa_prior : forall h X, P h -> allocated h X -> hspec (hpr_prior hp X) h (fun r _ => r = pr_prior p (rd h X));
  pa_proxf : implements P (hpr_proxf hp) (pr_proxf p) }.
(** the start point, any existing array: it may share elements with anything *)
Definition start_on_arrays (h : aheap) (hs : hstart) (s : start_point) : Prop :=
  match hs, s with
  | HStartNone, StartNone => True
  | HStartArray sh r, StartArray sh' buf => sh = sh' /\ allocated h r /\ rd h r = buf
  | HStartOther, StartOther => True
  | _, _ => False
  end.

(** the three samplers *)
Inductive sampler := KMyula | KPxmala (tune : bool) | KSkrock.
Definition run_values {V D K P G I} (o : ops V D K P G I) (prm : params) (k : sampler) (fuel : nat) (start : I) :=
  match k with
  | KMyula => myula_run o prm fuel start
  | KPxmala tune => pxmala_run o prm tune fuel start
  | KSkrock => skrock_run o prm fuel start
  end.
Definition run_arrays {G I HI} (o : ops vec vec C R G I) (ho : hops G HI) (prm : params) (nV nD : nat) (k : sampler) (fuel : nat) (start : HI) :=
  match k with
  | KMyula => h_myula_run o ho prm nV nD fuel start
  | KPxmala tune => h_pxmala_run o ho prm nV nD tune fuel start
  | KSkrock => h_skrock_run o ho prm nV nD fuel start
  end.
