(** Vocabulary for C75: the acceptance rule of PxMALA on complex samples. *)
From Coq Require Import List ZArith Reals.
From Coquelicot Require Import Coquelicot.
From Verif Require Import PyBase CVec Forward Prior Mcmc.
Import ListNotations.
Open Scope R_scope.

(** sum of the squares of the differences, without moduli *)
Fixpoint sqs (x y : vec) : C :=
  match x, y with a :: x, b :: y => ((a - b) * (a - b) + sqs x y)%C | _, _ => RtoC 0 end.
(** squared distance *)
Fixpoint cdist2 (x y : vec) : R :=
  match x, y with a :: x, b :: y => Cmod (a - b)%C ^ 2 + cdist2 x y | _, _ => 0 end.

(** n parameters without regulariser; at every sample x, complex or not, the data
    term has gradient w (x - c) and the log posterior is e - w |x - c|^2 *)
Definition cwell (f : forward_op) (pr : prior_obj) (q : numparams) (n : nat) (w : R) (c : vec) : Prop :=
  fo_nparams f = Some n /\ length c = n /\
  exists e, forall x, length x = n -> exists d l2 p,
    fo_forward f x = Ok d /\ pr_proxf pr x = Ok x /\
    fo_gradg f d = Ok (map (fun p => RtoC w * (fst p - snd p))%C (combine x c)) /\
    logpi f pr q x d = Ok (RtoC (e - w * cdist2 x c), l2, p).

(** centre of the proposal from x *)
Definition cpulled (delta w : R) (c x : vec) : vec :=
  map (fun p => fst p - RtoC (delta * w) * (fst p - snd p))%C (combine x c).

(** the sample c + z u for a real vector u: u seen from c in the direction z *)
Definition seen (z : C) (c : vec) (u : list R) : vec := map (fun p => fst p + z * RtoC (snd p))%C (combine c u).
