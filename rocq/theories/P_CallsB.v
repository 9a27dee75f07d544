(** C57: the values of the SKROCK stages when the operators have effects. *)
From Coq Require Import List ZArith Lia Bool Reals Lra String.
From Coquelicot Require Import Coquelicot.
From Verif Require Import PyBase CVec Thresh Utils Prior Forward Sampler Mcmc McmcProof FwdProof Calls.
Import ListNotations.
Open Scope R_scope.

(** the three calls behind one gradient, each with its result and effect *)
Definition gradient_calls {E} (u : user_ops E) (X : vec) (e : E) (p g : vec) (e' : E) : Prop :=
  exists d e1 e2, u_proxf u X e = (Ok p, e1) /\ u_forward u X e1 = (Ok d, e2) /\ u_gradg u d e2 = (Ok g, e').
Definition minus_gradient (l : R) (X p g : vec) : vec := vsub (vscal (RtoC (- / l)) (vsub X p)) g.

(** Stage s - 1 is evaluated twice, and the two evaluations may differ: the
    gradient is taken at the first, the second enters the sum.  Any call may
    have changed what the next one returns. *)
Theorem C57_stage_values : forall E (u : user_ops E) q delta X Z e n,
  List.length X = n -> List.length Z = n ->
  xK_recursion u q delta X 0 Z e = (Ok X, e) /\
  (forall mu nu k p g e', coef q 1 = Ok (mu, nu, k) ->
     let y := vadd X (vscal (RtoC (nu * sqrt (2 * delta))) Z) in
     gradient_calls u y e p g e' -> List.length p = n -> List.length g = n ->
     xK_recursion u q delta X 1 Z e =
       (Ok (vadd (vadd X (vscal (RtoC (mu * delta)) (minus_gradient (n_lmda q) y p g))) (vscal (RtoC (k * sqrt (2 * delta))) Z)), e')) /\
  (forall s mu nu k a p g b c e1 e2 e3 e4, coef q (S (S s)) = Ok (mu, nu, k) ->
     xK_recursion u q delta X (S s) Z e = (Ok a, e1) -> gradient_calls u a e1 p g e2 ->
     xK_recursion u q delta X (S s) Z e2 = (Ok b, e3) -> xK_recursion u q delta X s Z e3 = (Ok c, e4) ->
     List.length a = n -> List.length p = n -> List.length g = n -> List.length b = n -> List.length c = n ->
     xK_recursion u q delta X (S (S s)) Z e =
       (Ok (vsub (map (fun z => (z + RtoC k)%C) (vadd (vscal (RtoC (mu * delta)) (minus_gradient (n_lmda q) a p g)) (vscal (RtoC nu) b))) c), e4)).
Proof.
  intros E u q delta X Z e n LX LZ.
  assert (GR : forall y p g e0 e', gradient_calls u y e0 p g e' -> List.length y = n -> List.length p = n -> List.length g = n ->
            xgradlogpi u q y None e0 = (Ok (minus_gradient (n_lmda q) y p g), e')).
  { intros y p g e0 e' (d & e1 & e2 & A & B & C) Ly Lp Lg. unfold xgradlogpi, ethen, epure. rewrite A, np_sub_same by congruence. rewrite B, C.
    rewrite np_sub_same by (unfold vopp; rewrite map_length, vscal_length, vsub_length; congruence). unfold minus_gradient. do 3 f_equal.
    unfold vopp, vscal. rewrite map_map. apply map_ext. intros z. rewrite RtoC_opp. ring. }
  assert (GL : forall y p g, List.length y = n -> List.length p = n -> List.length g = n -> List.length (minus_gradient (n_lmda q) y p g) = n).
  { intros y p g Ly Lp Lg. unfold minus_gradient. assert (List.length (vsub y p) = n) by (rewrite vsub_length; congruence).
    rewrite vsub_length; rewrite ?vscal_length; congruence. }
  split; [reflexivity|]. split.
  - intros mu nu k p g e' Ec y GC Lp Lg. cbn [xK_recursion]. unfold ethen at 1, epure at 1. rewrite Ec. unfold ethen at 1, epure at 1.
    rewrite np_add_same by (rewrite vscal_length; congruence). fold y.
    assert (Ly : List.length y = n) by (unfold y; rewrite vadd_length; rewrite ?vscal_length; congruence).
    unfold ethen at 1. rewrite (GR _ _ _ _ _ GC Ly Lp Lg). unfold ethen, epure. assert (L := GL y p g Ly Lp Lg).
    rewrite np_add_same by (rewrite vscal_length; congruence). rewrite np_add_same; [reflexivity|].
    rewrite vadd_length; rewrite ?vscal_length; congruence.
  - intros s mu nu k a p g b c e1 e2 e3 e4 Ec Ka GC Kb Kc La Lp Lg Lb Lc.
    change (xK_recursion u q delta X (S (S s)) Z) with
      (ethen (epure (coef q (S (S s)))) (fun c => let '(mu, nu, k) := c in
        ethen (xK_recursion u q delta X (S s) Z) (fun K1 => ethen (xgradlogpi u q K1 None) (fun gr =>
        ethen (xK_recursion u q delta X (S s) Z) (fun K1' => ethen (epure (np_add (vscal (RtoC (mu * delta)) gr) (vscal (RtoC nu) K1'))) (fun a =>
        ethen (xK_recursion u q delta X s Z) (fun K2 => epure (np_sub (vshift (RtoC k) a) K2)))))))).
    unfold ethen, epure. rewrite Ec, Ka, (GR _ _ _ _ _ GC La Lp Lg), Kb. assert (L := GL a p g La Lp Lg).
    rewrite np_add_same by (rewrite !vscal_length; congruence). rewrite Kc. rewrite np_sub_same; [reflexivity|].
    unfold vshift. rewrite map_length, vadd_length; rewrite ?vscal_length; congruence.
Qed.
Print Assumptions C57_stage_values.

(** Two stages, with a proxf that returns its k-th call's number: one parameter,
    identity forward, gradg and proxf.  Calls made: stage 1 (once for the
    gradient, once for the sum), i.e. proxf calls 0, 1 and 2. *)
Definition drifting : user_ops nat :=
  mkUser (fun x e => (Ok x, e)) (fun d e => (Ok d, e)) (fun x e => (Ok [RtoC (INR e)], S e)) (fun _ e => (Ok 0, e)).
Example C57_stage_case : forall q delta mu nu k mu' nu' k', n_lmda q = 1 ->
  coef q 1 = Ok (mu, nu, k) -> coef q 2 = Ok (mu', nu', k') ->
  xK_recursion drifting q delta [RtoC 0] 2 [RtoC 0] 0%nat =
    (Ok [RtoC (mu' * delta * (1 - 2 * (mu * delta * 0)) + nu' * (mu * delta * 2) + k' - 0)], 3%nat).
Proof.
  intros q delta mu nu k mu' nu' k' Hl E1 E2.
  destruct (C57_stage_values nat drifting q delta [RtoC 0] [RtoC 0] 0%nat 1 eq_refl eq_refl) as (A0 & A1 & A2).
  assert (ST : forall e, xK_recursion drifting q delta [RtoC 0] 1 [RtoC 0] e = (Ok [RtoC (mu * delta * INR e)], S e)).
  { intros e. destruct (C57_stage_values nat drifting q delta [RtoC 0] [RtoC 0] e 1 eq_refl eq_refl) as (_ & B1 & _).
    rewrite (B1 mu nu k [RtoC (INR e)] (vadd [RtoC 0] (vscal (RtoC (nu * sqrt (2 * delta))) [RtoC 0])) (S e) E1); [|do 3 eexists; split; [reflexivity|split; reflexivity]|reflexivity|reflexivity].
    unfold minus_gradient. cbn [vadd vscal vsub map2 map]. rewrite Hl. do 3 f_equal. apply C_ext; cbn; field. }
  rewrite (A2 0%nat mu' nu' k' [RtoC (mu * delta * INR 0)] [RtoC (INR 1)] [RtoC (mu * delta * INR 0)] [RtoC (mu * delta * INR 2)] [RtoC 0] 1%nat 2%nat 3%nat 3%nat E2 (ST _));
    [|do 3 eexists; split; [reflexivity|split; reflexivity]|apply ST|reflexivity..].
  unfold minus_gradient. cbn [vadd vscal vsub map2 map]. rewrite Hl. do 3 f_equal. apply C_ext; cbn; field.
Qed.
