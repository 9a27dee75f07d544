(** Vocabulary for C71: what deltas_trace and acceptance_trace say about the
    acceptance rate of PxMALA. *)
From Coq Require Import List ZArith Reals.
Import ListNotations.
Open Scope R_scope.

(** number of accepted proposals in the iterations a, ..., b - 1 *)
Definition accepted_in (accs : list Z) (a b : nat) : nat := count_occ Z.eq_dec (firstn (b - a) (skipn a accs)) 1%Z.

(** entry i of deltas_trace: the step size with which iteration i proposes *)
Definition step_at (trace : list R) (i : nat) : R := nth i trace 0.

(** in iterations a, ..., b - 1 the step size was not set to the upper (lower)
    end of its band *)
Definition stays_below (lmda : R) (trace : list R) (a b : nat) : Prop :=
  forall i, (a < i <= b)%nat -> step_at trace i < lmda / 2.
Definition stays_above (lmda : R) (trace : list R) (a b : nat) : Prop :=
  forall i, (a < i <= b)%nat -> lmda / 10 ^ 8 < step_at trace i.

(** number of iterations to the power 3/4 *)
Definition pow34 (k : nat) : R := Rpower (INR k) (3 / 4).

(** np.mean(acceptance_trace) *)
Definition mean_of (accs : list Z) : R := fold_right (fun z s => IZR z + s) 0 accs / INR (length accs).
