(** Vocabulary for C69: test functions, laws of samples as mean values. *)
From Coq Require Import List ZArith Reals.
From Coquelicot Require Import Coquelicot.
From Verif Require Import PyBase CVec Forward Sampler Mcmc MomentSpec.
Import ListNotations.
Open Scope R_scope.

(** Euclidean distance *)
Definition dist (x y : vec) : R := sqrt (nrm2 (vsub x y)).
(** h changes by at most A times the distance, on vectors of length n *)
Definition lipschitz (n : nat) (A : R) (h : vec -> R) : Prop :=
  0 <= A /\ forall x y, List.length x = n -> List.length y = n -> Rabs (h x - h y) <= A * dist x y.

(** one MYULA step from x, by the functions of the package, with the random
    vectors of the tape l *)
Definition next_sample (R0 : rng (list (list R))) (f : forward_op) (pr : prior_obj) (q : numparams) (delta : R) (x : vec) (l : list (list R)) : res vec :=
  let* d := fo_forward f x in
  let* g := fo_gradg f d in
  let* p := pr_proxf pr x in
  fst (chain_step R0 f q delta x p g l).
(** mean of h after one step from x *)
Definition after_step (R0 : rng (list (list R))) (f : forward_op) (pr : prior_obj) (q : numparams) (delta : R) (S : law) (h : vec -> R) (x : vec) : R :=
  expect S (per_step (n_complex q)) (fun l => match next_sample R0 f pr q delta x l with Ok y => h y | Raise _ => 0 end).

(** a probability law of vectors of length n, through its means of Lipschitz
    functions *)
Definition law_of_vectors (n : nat) (mu : (vec -> R) -> R) : Prop :=
  mu (fun _ => 1) = 1 /\
  (forall A B g h a b, lipschitz n A g -> lipschitz n B h -> mu (fun x => a * g x + b * h x) = a * mu g + b * mu h) /\
  (forall A B g h, lipschitz n A g -> lipschitz n B h -> (forall x, List.length x = n -> g x <= h x) -> mu g <= mu h).
(** one step leaves it as it is *)
Definition stationary (R0 : rng (list (list R))) (f : forward_op) (pr : prior_obj) (q : numparams) (delta : R) (S : law) (n : nat) (mu : (vec -> R) -> R) : Prop :=
  forall A h, lipschitz n A h -> mu (after_step R0 f pr q delta S h) = mu h.

(** mean of h at row j of the chain *)
Definition mean_at {D K' P} (S : law) (K : nat)
    (run : world vec D K' P (list (list R)) -> world vec D K' P (list (list R)) * outcome unit)
    (s0 : inst vec D K' P) (j : nat) (h : vec -> R) : R :=
  expect S K (fun l => h (row_of run s0 j [] l)).
(** average of h over the N rows of the chain *)
Definition average {D K' P}
    (run : world vec D K' P (list (list R)) -> world vec D K' P (list (list R)) * outcome unit)
    (s0 : inst vec D K' P) (N : nat) (h : vec -> R) (l : list (list R)) : R :=
  rsum (map (fun j => h (row_of run s0 j [] l)) (seq 0 N)) / INR N.
(** mean square of its distance from a *)
Definition average_error {D K' P} (S : law) (K : nat)
    (run : world vec D K' P (list (list R)) -> world vec D K' P (list (list R)) * outcome unit)
    (s0 : inst vec D K' P) (N : nat) (h : vec -> R) (a : R) : R :=
  expect S K (fun l => (average run s0 N h l - a) ^ 2).
(** probability of an event *)
Definition prob (S : law) (K : nat) (E : list (list R) -> bool) : R := expect S K (fun l => if E l then 1 else 0).
