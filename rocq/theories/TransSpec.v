(** Vocabulary for the wavelet wrapper: functions between images and pairs
    (wavelet coefficients, scaling coefficients). *)
From Coq Require Import List Reals.
From Coquelicot Require Import Coquelicot.
From Verif Require Import PyBase CVec.
Open Scope R_scope.

(** [f] takes images of [n] samples to [a] wavelet and [b] scaling coefficients *)
Definition pair_maps (f : vec -> res (vec * vec)) (n a b : nat) : Prop :=
  forall x, length x = n -> exists w s, f x = Ok (w, s) /\ length w = a /\ length s = b.
(** [g] takes such pairs back to images *)
Definition unpair_maps (g : vec -> vec -> res vec) (n a b : nat) : Prop :=
  forall w s, length w = a -> length s = b -> exists x, g w s = Ok x /\ length x = n.
(** <w, f_w x> + <s, f_s x> = <g (w, s), x> *)
Definition pair_adjoint (f : vec -> res (vec * vec)) (g : vec -> vec -> res vec) (n a b : nat) : Prop :=
  pair_maps f n a b /\ unpair_maps g n a b /\
  forall x w s fw fs gx, length x = n -> length w = a -> length s = b ->
    f x = Ok (fw, fs) -> g w s = Ok gx -> (cdot w fw + cdot s fs)%C = cdot gx x.
(** [g] undoes [f] *)
Definition pair_inverse (f : vec -> res (vec * vec)) (g : vec -> vec -> res vec) (n : nat) : Prop :=
  forall x w s, length x = n -> f x = Ok (w, s) -> g w s = Ok x.
