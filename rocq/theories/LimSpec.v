(** Float values close to those of the real-number model, and sampler objects whose
    attributes are (C66). *)
From Coq Require Import List ZArith Reals.
From Coquelicot Require Import Coquelicot.
From Verif Require Import PyBase CVec Mcmc Sampler ParamSpec Ieee.
Import ListNotations.
Open Scope R_scope.

(** vectors of n numbers, entry by entry at a distance of at most e *)
Definition near_vec (n : nat) (e : R) (x : fvec) (y : vec) : Prop :=
  exists v w, x = map Fin v /\ y = map RtoC w /\ List.length v = n /\ List.length w = n /\ forall k, (k < n)%nat -> Rabs (nth k v 0 - nth k w 0) <= e.
Definition near_num (e : R) (k : float) (z : C) : Prop := exists r s, k = Fin r /\ z = RtoC s /\ Rabs (r - s) <= e.
Definition near_step (e : R) (p : float) (d : R) : Prop := 0 < d /\ exists r, p = Fin r /\ Rabs (r - d) <= e.
Definition near_start (n : nat) (e : R) (i : option fvec) (j : start_point) : Prop :=
  match i, j with
  | None, StartNone => True
  | Some x, StartArray shape buf => shape = [n] /\ near_vec n e x buf
  | _, _ => False
  end.
(** for problems with n parameters and m data *)
Definition near_world {G} (n m : nat) (e : R) : world fvec fvec float float G -> world vec vec C R G -> Prop :=
  rel_world (near_vec n e) (near_vec m e) (near_num e) (near_step e) eq.
(** the same outcome, in worlds at a distance of at most e *)
Definition near_run {G} (n m : nat) (e : R) : world fvec fvec float float G * outcome unit -> world vec vec C R G * outcome unit -> Prop :=
  rel_run (near_vec n e) (near_vec m e) (near_num e) (near_step e) eq.
