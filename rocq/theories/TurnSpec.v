(** C73: what complex data do to the weights.  forward.py:81-82 turns a real
    variance by an eighth of a circle when the data are complex. *)
From Coq Require Import List Reals.
From Coquelicot Require Import Coquelicot.
From Verif Require Import PyBase CVec Forward.
Import ListNotations.
Open Scope R_scope.

(** exp(-i pi/4) *)
Definition turn : C := (/ sqrt 2, - / sqrt 2).

(** [f] has the operators and the data values of [f0], but weights that are
    those of [f0] times [turn]; m data *)
Definition turned (f f0 : forward_op) (m : nat) : Prop :=
  d_val (fo_data f) = d_val (fo_data f0) /\ fo_setting f = fo_setting f0 /\ fo_transform f = fo_transform f0 /\
  fo_measurement f = fo_measurement f0 /\ fo_nparams f = fo_nparams f0 /\
  m_rows (fo_invcov f) = m /\ m_cols (fo_invcov f) = m /\ m_rows (fo_invcov f0) = m /\ m_cols (fo_invcov f0) = m /\
  forall i j, (i < m)%nat -> (j < m)%nat -> m_ent (fo_invcov f) i j = (turn * m_ent (fo_invcov f0) i j)%C.

(** all entries real *)
Definition real_vec (x : vec) : Prop := List.Forall (fun z => Im z = 0) x.
Definition re_part (x : vec) : vec := map (fun z => RtoC (Re z)) x.
Definition im_part (x : vec) : vec := map (fun z => RtoC (Im z)) x.

Fixpoint cpow (a : C) (k : nat) : C := match k with O => RtoC 1 | S k => (a * cpow a k)%C end.
(** (Re 1)^2 + (Re a)^2 + (Re a^2)^2 + ..., k terms *)
Fixpoint re_geom (a : C) (k : nat) : R := match k with O => 0 | S k => re_geom a k + Re (cpow a k) ^ 2 end.

(** the factor by which one step of size [delta] reduces a displacement when the
    curvature of the data term is [w] in every direction *)
Definition turned_factor (delta w : R) : C := (RtoC 1 - RtoC (delta * w) * turn)%C.
