(** Two sampler executions on different representations of vectors, data,
    scalars, step sizes, random states and start values, compared by relations. *)
From Coq Require Import List ZArith.
From Verif Require Import PyBase Sampler.
Import ListNotations.

(** the same exception, or related results *)
Definition rel_res {A B} (R : A -> B -> Prop) (r : res A) (s : res B) : Prop :=
  match r, s with Ok a, Ok b => R a b | Raise e, Raise e' => e = e' | _, _ => False end.
Definition rel_out {A B} (R : A -> B -> Prop) (r : outcome A) (s : outcome B) : Prop :=
  match r, s with Ret a, Ret b => R a b | Exn e, Exn e' => e = e' | NoFuel, NoFuel => True | _, _ => False end.
(** both attributes absent, or lists of one length with related entries *)
Definition rel_arr {A B} (R : A -> B -> Prop) (a : option (list A)) (b : option (list B)) : Prop :=
  match a, b with None, None => True | Some l, Some m => Forall2 R l m | _, _ => False end.
Definition rel_tri {A B} (R : A -> B -> Prop) (t : A * A * A) (u : B * B * B) : Prop :=
  R (fst (fst t)) (fst (fst u)) /\ R (snd (fst t)) (snd (fst u)) /\ R (snd t) (snd u).

Section Rel.
Context {V1 D1 K1 P1 G1 I1 V2 D2 K2 P2 G2 I2 : Type}.
Variable RV : V1 -> V2 -> Prop.
Variable RD : D1 -> D2 -> Prop.
Variable RK : K1 -> K2 -> Prop.
Variable RP : P1 -> P2 -> Prop.
Variable RG : G1 -> G2 -> Prop.
Variable RI : I1 -> I2 -> Prop.

Definition rel_drawn {A B} (R : A -> B -> Prop) (r : res A * G1) (s : res B * G2) : Prop :=
  rel_res R (fst r) (fst s) /\ RG (snd r) (snd s).

Inductive rel_event : event K1 -> event K2 -> Prop :=
| rel_progress i a b c a' b' c' acc : RK a a' -> RK b b' -> RK c c' ->
    rel_event (EvProgress i a b c acc) (EvProgress i a' b' c' acc)
| rel_burning : rel_event EvBurning EvBurning
| rel_done : rel_event EvDone EvDone.

(** the objects have related attributes and have printed corresponding lines *)
Record rel_inst (s : inst V1 D1 K1 P1) (t : inst V2 D2 K2 P2) : Prop := {
  ri_logPi : rel_arr RK (i_logPi s) (i_logPi t);
  ri_L2s : rel_arr RK (i_L2s s) (i_L2s t);
  ri_priors : rel_arr RK (i_priors s) (i_priors t);
  ri_preds : rel_arr RD (i_preds s) (i_preds t);
  ri_chain : rel_arr RV (i_chain s) (i_chain t);
  ri_acc : i_acc s = i_acc t;
  ri_deltas : rel_arr RP (i_deltas s) (i_deltas t);
  ri_delta : RP (i_delta s) (i_delta t);
  ri_out : Forall2 rel_event (i_out s) (i_out t) }.

Definition rel_world (w : world V1 D1 K1 P1 G1) (v : world V2 D2 K2 P2 G2) : Prop :=
  rel_inst (w_inst w) (w_inst v) /\ RG (w_rng w) (w_rng v).

(** related operations (all but SKROCK's step) *)
Record rel_ops (o : ops V1 D1 K1 P1 G1 I1) (u : ops V2 D2 K2 P2 G2 I2) : Prop := {
  ro_init : forall i i' g g', RI i i' -> RG g g' -> rel_drawn RV (o_init o i g) (o_init u i' g');
  ro_forward : forall x y, RV x y -> rel_res RD (o_forward o x) (o_forward u y);
  ro_gradg : forall x y, RD x y -> rel_res RV (o_gradg o x) (o_gradg u y);
  ro_proxf : forall x y, RV x y -> rel_res RV (o_proxf o x) (o_proxf u y);
  ro_logpi : forall x y d e, RV x y -> RD d e -> rel_res (rel_tri RK) (o_logpi o x d) (o_logpi u y e);
  ro_step : forall p p' x x' y y' z z' g g', RP p p' -> RV x x' -> RV y y' -> RV z z' -> RG g g' ->
    rel_drawn RV (o_step o p x y z g) (o_step u p' x' y' z' g');
  ro_logtrans : forall p p' x x' y y' z z' t t', RP p p' -> RV x x' -> RV y y' -> RV z z' -> RV t t' ->
    rel_res RK (o_logtrans o p x y z t) (o_logtrans u p' x' y' z' t');
  ro_logrand : forall g g', RG g g' -> RK (fst (o_logrand o g)) (fst (o_logrand u g')) /\ RG (snd (o_logrand o g)) (snd (o_logrand u g'));
  ro_kadd : forall a a' b b', RK a a' -> RK b b' -> RK (o_kadd o a b) (o_kadd u a' b');
  ro_ksub : forall a a' b b', RK a a' -> RK b b' -> RK (o_ksub o a b) (o_ksub u a' b');
  ro_kltb : forall a a' b b', RK a a' -> RK b b' -> o_kltb o a b = o_kltb u a' b';
  ro_tune : forall p p' a i, RP p p' -> RP (o_tune o p a i) (o_tune u p' a i);
  ro_rowV : forall x y, RV x y -> rel_res RV (o_rowV o x) (o_rowV u y);
  ro_rowD : forall x y, RD x y -> rel_res RD (o_rowD o x) (o_rowD u y);
  ro_rowK : forall a b, RK a b -> RK (o_rowK o a) (o_rowK u b);
  ro_zeroV : RV (o_zeroV o) (o_zeroV u);
  ro_zeroD : RD (o_zeroD o) (o_zeroD u);
  ro_zeroK : RK (o_zeroK o) (o_zeroK u) }.

Definition rel_skstep (o : ops V1 D1 K1 P1 G1 I1) (u : ops V2 D2 K2 P2 G2 I2) : Prop :=
  forall p p' x x' g g', RP p p' -> RV x x' -> RG g g' -> rel_drawn RV (o_skstep o p x g) (o_skstep u p' x' g').

(** related executions: the same kind of outcome in related worlds *)
Definition rel_run (r : world V1 D1 K1 P1 G1 * outcome unit) (s : world V2 D2 K2 P2 G2 * outcome unit) : Prop :=
  rel_world (fst r) (fst s) /\ snd r = snd s.
End Rel.
