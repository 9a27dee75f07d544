(** Expectations over the draws of np.random.randn, for C60.  A finite law
    stands for the distribution of one call: a list of outcomes with their
    probabilities.  Successive calls are independent. *)
From Coq Require Import List ZArith Reals.
From Coquelicot Require Import Coquelicot.
From Verif Require Import PyBase CVec Sampler Mcmc.
Import ListNotations.
Open Scope R_scope.

(** probability and value of one call randn(n) *)
Definition law := list (R * list R).
Definition mean (S : law) (h : list R -> R) : R := rsum (map (fun pw => fst pw * h (snd pw)) S).

(** probabilities; every outcome has n entries; each entry has mean zero; the
    mean square length is v * n (v = 1 for the standard normal law) *)
Definition white (S : law) (n : nat) (v : R) : Prop :=
  (forall pw, In pw S -> 0 <= fst pw /\ List.length (snd pw) = n) /\
  mean S (fun _ => 1) = 1 /\
  (forall i, (i < n)%nat -> mean S (fun w => nth i w 0) = 0) /\
  mean S (fun w => rsum (map (fun x => x ^ 2) w)) = v * INR n.

(** expectation of a quantity that depends on the first k calls *)
Fixpoint expect (S : law) (k : nat) (h : list (list R) -> R) : R :=
  match k with
  | O => h []
  | Datatypes.S k => mean S (fun w => expect S k (fun l => h (w :: l)))
  end.

(** the generator's state is the list of the values it will return *)
Definition reads_tape (R0 : rng (list (list R))) (n : nat) : Prop :=
  forall w g, List.length w = n -> g_randn R0 n (w :: g) = (w, g).

(** calls of randn in one MYULA step *)
Definition per_step (cplx : bool) : nat := if cplx then 2%nat else 1%nat.

(** 1 + r + ... + r^(k-1) *)
Fixpoint geom (r : R) (k : nat) : R := match k with O => 0 | Datatypes.S k => 1 + r * geom r k end.

(** row j of the chain array after a run from the generator state [l] *)
Definition row_of {V D K P G} (run : world V D K P G -> world V D K P G * outcome unit) (s0 : inst V D K P)
    (j : nat) (dflt : V) (l : G) : V :=
  match i_chain (w_inst (fst (run (mkWorld s0 l)))) with Some c => nth j c dflt | None => dflt end.

(** how the chain array of a real run keeps a sample: the real parts *)
Definition stored (cplx : bool) (z : vec) : vec := if cplx then z else map (fun u => RtoC (Re u)) z.

(** mean square distance of row j to [y], over the first K random vectors *)
Definition mean_sq {D K' P} (S : law) (K : nat)
    (run : world vec D K' P (list (list R)) -> world vec D K' P (list (list R)) * outcome unit)
    (s0 : inst vec D K' P) (j : nat) (y : vec) : R :=
  expect S K (fun l => nrm2 (vsub (row_of run s0 j [] l) y)).

(** mean of the inner product of row j with [a] (an entry, for a unit vector) *)
Definition mean_dot {D K' P} (S : law) (K : nat)
    (run : world vec D K' P (list (list R)) -> world vec D K' P (list (list R)) * outcome unit)
    (s0 : inst vec D K' P) (j : nat) (a : vec) : R :=
  expect S K (fun l => Re (cdot a (row_of run s0 j [] l))).
