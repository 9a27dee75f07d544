(** Ties in the decisions of PxMALA (C66): they change the acceptance trace. *)
From Coq Require Import List ZArith Lia Bool.
From Verif Require Import PyBase PyBaseFacts Sampler LimRun.
Import ListNotations.

(** the operations of a sampler that also accepts proposals with log u = logalpha;
    mcmc.py:245 has "<" *)
Definition or_equal {V D K P G I} (o : ops V D K P G I) : ops V D K P G I := {|
  o_init := o_init o; o_forward := o_forward o; o_gradg := o_gradg o; o_proxf := o_proxf o; o_logpi := o_logpi o; o_step := o_step o;
  o_skstep := o_skstep o; o_logtrans := o_logtrans o; o_logrand := o_logrand o; o_kadd := o_kadd o; o_ksub := o_ksub o;
  o_kltb := fun a b => negb (o_kltb o b a); o_tune := o_tune o;
  o_rowV := o_rowV o; o_rowD := o_rowD o; o_rowK := o_rowK o; o_zeroV := o_zeroV o; o_zeroD := o_zeroD o; o_zeroK := o_zeroK o |}.
(** the decisions of PxMALA do not depend on how ties are resolved *)
Definition no_ties {V D K P G I} (o : ops V D K P G I) (prm : params) (tune : bool) (fuel : nat) (start : I) (w : world V D K P G) : Prop :=
  i_acc (w_inst (fst (pxmala_run o prm tune fuel start w))) = i_acc (w_inst (fst (pxmala_run (or_equal o) prm tune fuel start w))).

Section Tie.
Context {V D K P G I : Type}.
Notation M := (@M V D K P G).
Notation acc w := (i_acc (w_inst w)).
Definition keeps {A} (m : M A) : Prop := forall w, acc (fst (m w)) = acc w.
Definition grows {A} (m : M A) : Prop := forall w l, acc w = Some l -> exists l', acc (fst (m w)) = Some (l ++ l').

Lemma k_ret {A} (a : A) : keeps (ret a). Proof. intros w. reflexivity. Qed.
Lemma k_throw {A} e : keeps (@throw V D K P G A e). Proof. intros w. reflexivity. Qed.
Lemma k_bind {A B} (m : M A) (k : A -> M B) : keeps m -> (forall a, keeps (k a)) -> keeps (bind m k).
Proof. intros Hm Hk w. unfold bind. specialize (Hm w). destruct (m w) as [w' [a|e|]]; cbn in *; auto. now rewrite Hk. Qed.
Lemma k_lift {A} (r : res A) : keeps (lift r). Proof. destruct r; [apply k_ret|apply k_throw]. Qed.
Lemma k_rng {A} (f : G -> res A * G) : keeps (with_rng f).
Proof. intros w. unfold with_rng. destruct (f (w_rng w)) as [r g]. now rewrite (k_lift r). Qed.
Lemma k_get : keeps (@get_inst V D K P G). Proof. intros w. reflexivity. Qed.
Lemma k_print e : keeps (@print V D K P G e). Proof. intros w. reflexivity. Qed.
Lemma k_store {A} get set j (v : res A) : (forall l s, i_acc (set l s : inst V D K P) = i_acc s) -> keeps (@store V D K P G A get set j v).
Proof.
  intros HS w. unfold store, bind, get_inst. destruct (get (w_inst w)) as [l|]; [|reflexivity]. destruct v as [a|e]; [|reflexivity]. cbn [lift ret].
  destruct (py_setitem l j a) as [l'|e]; [|reflexivity]. cbn. apply HS.
Qed.
Variable o : ops V D K P G I.
Variable prm : params.
Lemma k_tracking j x d a b c : keeps (tracking o j x d a b c).
Proof. unfold tracking. repeat (apply k_bind; [apply k_store; reflexivity|intros _]). apply k_store. reflexivity. Qed.
Lemma k_read {A} (get : inst V D K P -> option (list A)) k : keeps (@read_attr V D K P G A get k).
Proof. intros w. unfold read_attr, bind, get_inst. destruct (get (w_inst w)); [|reflexivity]. apply k_lift. Qed.
Lemma k_tune k : keeps (tune_delta o k).
Proof.
  intros w. unfold tune_delta, bind. assert (H := k_read i_acc k w). destruct (read_attr i_acc k w) as [w' [a|e|]]; cbn in *; auto.
Qed.
Lemma k_append_delta : keeps (@append_delta V D K P G).
Proof. intros w. unfold append_delta, bind, get_inst. destruct (i_deltas (w_inst w)); reflexivity. Qed.
Lemma k_if {A} (c : bool) (m n : M A) : keeps m -> keeps n -> keeps (if c then m else n).
Proof. destruct c; auto. Qed.

Lemma k_pre c : keeps (pre o c).
Proof.
  unfold pre. apply k_bind; [apply k_get|intros s]. apply k_bind; [apply k_rng|intros X]. repeat (apply k_bind; [apply k_lift|intros ?]).
  destruct a4 as ((lp & l2) & pr). apply k_bind; [apply k_rng|intros]. apply k_ret.
Qed.
Lemma k_rest tune k j b c : keeps (rest prm o tune k j b c).
Proof.
  unfold rest. apply k_bind; [apply k_if; [apply k_bind; [apply k_tune|intros _; apply k_append_delta]|apply k_ret]|intros _].
  apply k_bind; [apply k_if; [apply k_if; [apply k_bind; [apply k_tracking|intros; apply k_ret]|apply k_ret]|apply k_ret]|intros j'].
  apply k_bind; [apply k_if; [apply k_bind; [apply k_get|intros; apply k_print]|apply k_ret]|intros]. apply k_ret.
Qed.
(** one entry per iteration *)
Lemma post_acc tune k j c c1 b w l : acc w = Some l -> acc (fst (post prm o tune k j c c1 b w)) = Some (l ++ [if b then 1 else 0]%Z).
Proof.
  intros H. unfold post, bind, append_acc, bind, get_inst. rewrite H. cbn [put_inst]. rewrite (k_rest tune k j b). reflexivity.
Qed.
Lemma body_grows tune k j c : grows (pxmala_body o prm tune k j c).
Proof.
  intros w l H. rewrite body_split. unfold bind. assert (K1 := k_pre c w). destruct (pre o c w) as [w' [r|e|]]; cbn [fst] in *.
  - eexists. apply post_acc. congruence.
  - exists []. rewrite app_nil_r. congruence.
  - exists []. rewrite app_nil_r. congruence.
Qed.
Lemma loop_grows tune fuel : forall k j c, grows (pxmala_loop o prm tune fuel k j c).
Proof.
  induction fuel as [|f IH]; intros k j c w l H; cbn [pxmala_loop]; destruct (j <? p_nsamples prm)%Z; try (exists []; rewrite app_nil_r; exact H).
  unfold bind. destruct (body_grows tune k j c w l H) as (l1 & E1). destruct (pxmala_body o prm tune k j c w) as [w' [(j' & c')|e|]]; cbn [fst] in *; eauto.
  destruct (IH (k + 1)%Z j' c' w' _ E1) as (l2 & E2). exists (l1 ++ l2). now rewrite app_assoc.
Qed.
End Tie.

Section Calm.
Context {V D K P G I : Type}.
Variable u : ops V D K P G I.
Variable prm : params.
Notation acc w := (i_acc (w_inst w)).
Notation calm := (calm u prm).

Lemma same_trace_calm tune fuel : forall k j c v l, acc v = Some l ->
  acc (fst (pxmala_loop u prm tune fuel k j c v)) = acc (fst (pxmala_loop (or_equal u) prm tune fuel k j c v)) -> calm tune fuel k j c v.
Proof.
  induction fuel as [|f IH]; intros k j c v l HL E; cbn [LimRun.calm]; [exact Logic.I|]. intros EJ. cbn [pxmala_loop] in E. rewrite EJ in E.
  assert (BU := body_split prm u tune k j c v). assert (BO := body_split prm (or_equal u) tune k j c v).
  change (pre (or_equal u) c) with (pre u c) in BO. unfold bind in BU, BO. assert (K1 := k_pre u c v).
  destruct (pre u c v) as [v' [((c1 & lu) & la)|e|]] eqn:EP.
  2: { split; [intros ? ? ? ? H; discriminate H|]. intros ? ? ? H. rewrite BU in H. discriminate. }
  2: { split; [intros ? ? ? ? H; discriminate H|]. intros ? ? ? H. rewrite BU in H. discriminate. }
  cbn [fst snd] in *. assert (HL' : acc v' = Some l) by congruence.
  destruct (Bool.bool_dec (o_kltb u lu la) (negb (o_kltb u la lu))) as [EQ|NE].
  - split; [intros v2 c2 lu2 la2 H; injection H as <- <- <- <-; exact EQ|]. intros v2 j' c' H.
    assert (BE : pxmala_body (or_equal u) prm tune k j c v = pxmala_body u prm tune k j c v).
    { rewrite BU, BO. cbn [or_equal o_kltb]. rewrite <- EQ. reflexivity. }
    unfold bind in E. rewrite BE, H in E. destruct (body_grows u prm tune k j c v l HL) as (l' & E'). rewrite H in E'. cbn [fst] in E'.
    exact (IH _ _ _ _ _ E' E).
  - exfalso. assert (Q : forall (o0 : ops V D K P G I) b, acc (fst (pxmala_body o0 prm tune k j c v)) = Some (l ++ [b]) ->
      exists l', acc (fst (bind (pxmala_body o0 prm tune k j c) (fun r => let '(j', c') := r in pxmala_loop o0 prm tune f (k + 1) j' c') v)) = Some ((l ++ [b]) ++ l')).
    { intros o0 b H. unfold bind. destruct (pxmala_body o0 prm tune k j c v) as [v2 [(j' & c')|e|]]; cbn [fst] in *; [now apply loop_grows| |]; exists []; rewrite app_nil_r; exact H. }
    destruct (Q u (if o_kltb u lu la then 1 else 0)%Z) as (l1 & E1). { rewrite BU. now apply post_acc. }
    destruct (Q (or_equal u) (if negb (o_kltb u la lu) then 1 else 0)%Z) as (l2 & E2). { rewrite BO. now apply (post_acc (or_equal u)). }
    rewrite E1, E2 in E. injection E as E. rewrite <- !app_assoc in E. apply app_inv_head in E. cbn in E. injection E as E _.
    destruct (o_kltb u lu la), (negb (o_kltb u la lu)); try discriminate; now apply NE.
Qed.
Lemma no_ties_calm tune fuel start v : no_ties u prm tune fuel start v -> forall v' e, start_up u start v = (v', Ret e) -> calm tune fuel 0 0 e v'.
Proof.
  unfold no_ties. rewrite !run_split. change (start_up (or_equal u) start) with (start_up u start). unfold bind. intros E v' e H. rewrite H in E.
  assert (L : acc v' = Some []).
  { clear E. unfold start_up, bind at 1 2 3 4, get_inst, put_inst in H. cbn [w_inst w_rng] in H. set (w0 := mkWorld _ _) in H.
    assert (K0 : keeps (bind (initial_sample u start) (fun r => bind (lift (o_gradg u (snd r))) (fun gradg => bind (lift (o_proxf u (fst r))) (fun proxf =>
        bind (lift (o_logpi u (fst r) (snd r))) (fun t => ret (mkMala (fst r) (snd r) gradg proxf (fst (fst t)) (snd (fst t)) (snd t)))))))).
    { apply k_bind; [unfold initial_sample; apply k_bind; [apply k_rng|intros]; apply k_bind; [apply k_lift|intros; apply k_ret]|intros]. repeat (apply k_bind; [apply k_lift|intros ?]). apply k_ret. }
    specialize (K0 w0). rewrite H in K0. cbn in K0. exact K0. }
  exact (same_trace_calm tune fuel 0 0 e v' [] L E).
Qed.
End Calm.
