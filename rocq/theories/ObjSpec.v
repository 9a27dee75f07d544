(** Vocabulary for the statements about sampler objects and saved files. *)
From Coq Require Import List ZArith Bool String.
From Verif Require Import PyBase Sampler Objects.
Import ListNotations.
Open Scope Z_scope.
Notation length := List.length.
Notation append := String.append.

(** the documented dataset names (docs of save_mcmc): which attribute of the
    sampler a dataset holds, and whether it is stored as 8-bit integers *)
Definition dataset_source (n : string) : option (string * bool) :=
  if String.eqb n "logposterior" then Some ("logPi", false)%string
  else if String.eqb n "predictions" then Some ("preds", false)%string
  else if String.eqb n "chain" then Some ("chain", false)%string
  else if String.eqb n "L2s" then Some ("L2s", false)%string
  else if String.eqb n "priors" then Some ("priors", false)%string
  else if String.eqb n "acceptances" then Some ("acceptance_trace", true)%string
  else if String.eqb n "deltas" then Some ("deltas_trace", false)%string
  else None.

(** the file holds the value under that name, or nothing if there is no value *)
Definition holds {A B} (conv : A -> res B) (d : dict B) (n : string) (v : option A) : Prop :=
  match v with
  | Some x => exists b, conv x = Ok b /\ dget d n = Some b
  | None => dget d n = None
  end.

(** params overridden by the keyword arguments *)
Definition overridden {A} (d kw : dict A) (k : string) : option A :=
  match dget kw k with Some v => Some v | None => dget d k end.

Section Tracked.
Context {V D K P X : Type}.
Notation pyval := (pyval V D K P X).
(** attribute [attr] exists iff [b], and then it is an array with n rows *)
Definition array_attr {A} (wrap : list A -> pyval) (e : dict pyval) (attr : string) (b : bool) (n : nat) : Prop :=
  if b then exists l, dget e attr = Some (wrap l) /\ length l = n else dget e attr = None.
(** tracking arrays exactly for the known names in [tr] *)
Definition tracked_arrays (e : dict pyval) (tr : list string) (n : nat) : Prop :=
  array_attr VScal e "logPi" (str_in "logposterior" tr) n /\
  array_attr VScal e "L2s" (str_in "L2" tr) n /\
  array_attr VScal e "priors" (str_in "prior" tr) n /\
  array_attr VPred e "preds" (str_in "predictions" tr) n /\
  array_attr VChain e "chain" (str_in "chain" tr) n.
(** the attributes a run may assign *)
Definition run_attrs : list string :=
  ["logPi"; "L2s"; "priors"; "preds"; "chain"; "acceptance_trace"; "deltas_trace"; "delta"]%string.
End Tracked.

(** location [l] is not the target of a run in this session *)
Definition never_run {V D K P I X} (l : nat) (acts : list (action V D K P I X)) : Prop :=
  forall l' k fuel start, In (ARun l' k fuel start) acts -> l' <> l.
(** only these kinds of runs happen on [l] *)
Definition never_pxmala {V D K P I X} (l : nat) (acts : list (action V D K P I X)) : Prop :=
  forall t fuel start, ~ In (ARun l (KPxmala t) fuel start) acts.
