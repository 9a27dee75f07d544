(** A run whose operations succeed on an invariant set of vectors equals the
    run of operations that never raise. *)
From Coq Require Import List ZArith Lia Bool String.
From Verif Require Import PyBase Sampler SamplerSpec.
Import ListNotations.
Open Scope Z_scope.

Section Works.
Context {V D K P G I : Type}.
Variable o : ops V D K P G I.
Variables (PV : V -> Prop) (PD : D -> Prop) (start : I).
Hypothesis W : works_on o PV PD start.
Variables (dV : V) (dD : D) (dK : K).

Definition dflt {A} (d : A) (r : res A) : res A := match r with Ok a => Ok a | Raise _ => Ok d end.

(** every exception replaced by a default value *)
Definition defaulted : ops V D K P G I := {|
  o_init := fun s g => (dflt dV (fst (o_init o s g)), snd (o_init o s g));
  o_forward := fun x => dflt dD (o_forward o x);
  o_gradg := fun d => dflt dV (o_gradg o d);
  o_proxf := fun x => dflt dV (o_proxf o x);
  o_logpi := fun x d => dflt (dK, dK, dK) (o_logpi o x d);
  o_step := fun p x y z g => (dflt dV (fst (o_step o p x y z g)), snd (o_step o p x y z g));
  o_skstep := fun p x g => (dflt dV (fst (o_skstep o p x g)), snd (o_skstep o p x g));
  o_logtrans := fun p x y z t => dflt dK (o_logtrans o p x y z t);
  o_logrand := o_logrand o; o_kadd := o_kadd o; o_ksub := o_ksub o; o_kltb := o_kltb o; o_tune := o_tune o;
  o_rowV := fun x => dflt dV (o_rowV o x);
  o_rowD := fun d => dflt dD (o_rowD o d);
  o_rowK := o_rowK o; o_zeroV := o_zeroV o; o_zeroD := o_zeroD o; o_zeroK := o_zeroK o |}.

Lemma dflt_ok {A} (d : A) r : exists a, dflt d r = Ok a.
Proof. destruct r; simpl; eauto. Qed.

Lemma defaulted_total : total_ops defaulted.
Proof.
  assert (DP : forall A B (d : A) (q : res A * B), exists a b, (dflt d (fst q), snd q) = (Ok a, b)).
  { intros A B d [[a|e] b]; simpl; eauto. }
  unfold total_ops. simpl. split; [intros; apply DP|]. split; [intros; apply dflt_ok|]. split; [intros; apply dflt_ok|].
  split; [intros; apply dflt_ok|]. split; [intros; apply dflt_ok|]. split; [intros; apply DP|]. split; [intros; apply DP|].
  split; [intros; apply dflt_ok|]. split; intros; apply dflt_ok.
Qed.

Lemma defaulted_completes : completes o defaulted.
Proof.
  unfold completes. simpl.
  split; [intros s g x g' E; rewrite E; reflexivity|].
  split; [intros x d E; rewrite E; reflexivity|].
  split; [intros x d E; rewrite E; reflexivity|].
  split; [intros x d E; rewrite E; reflexivity|].
  split; [intros x d t E; rewrite E; reflexivity|].
  split; [intros p x y z g v g' E; rewrite E; reflexivity|].
  split; [intros p x g v g' E; rewrite E; reflexivity|].
  split; [intros p x y z t v E; rewrite E; reflexivity|].
  split; [intros x v E; rewrite E; reflexivity|].
  split; [intros x v E; rewrite E; reflexivity|].
  repeat split.
Qed.

(** the same on the invariant sets *)
Lemma ag_forward x : PV x -> o_forward defaulted x = o_forward o x.
Proof. intros H. simpl. destruct (proj1 (proj2 W) x H) as (d & -> & _). reflexivity. Qed.
Lemma ag_gradg d : PD d -> o_gradg defaulted d = o_gradg o d.
Proof. intros H. simpl. destruct (proj1 (proj2 (proj2 W)) d H) as (v & -> & _). reflexivity. Qed.
Lemma ag_proxf x : PV x -> o_proxf defaulted x = o_proxf o x.
Proof. intros H. simpl. destruct (proj1 (proj2 (proj2 (proj2 W))) x H) as (v & -> & _). reflexivity. Qed.
Lemma ag_logpi x d : PV x -> PD d -> o_logpi defaulted x d = o_logpi o x d.
Proof. intros H H'. simpl. destruct (proj1 (proj2 (proj2 (proj2 (proj2 W)))) x d H H') as (v & ->). reflexivity. Qed.
Lemma ag_step p x y z g : PV x -> PV y -> PV z -> o_step defaulted p x y z g = o_step o p x y z g.
Proof.
  intros Hx Hy Hz. simpl. destruct (proj1 (proj2 (proj2 (proj2 (proj2 (proj2 W))))) p x y z g Hx Hy Hz) as (v & g' & -> & _). reflexivity.
Qed.
Lemma ag_skstep p x g : PV x -> o_skstep defaulted p x g = o_skstep o p x g.
Proof. intros Hx. simpl. destruct (proj1 (proj2 (proj2 (proj2 (proj2 (proj2 (proj2 W)))))) p x g Hx) as (v & g' & -> & _). reflexivity. Qed.
Lemma ag_logtrans p x y z t : PV x -> PV y -> PV z -> PV t -> o_logtrans defaulted p x y z t = o_logtrans o p x y z t.
Proof.
  intros Hx Hy Hz Ht. simpl. destruct (proj1 (proj2 (proj2 (proj2 (proj2 (proj2 (proj2 (proj2 W))))))) p x y z t Hx Hy Hz Ht) as (v & ->). reflexivity.
Qed.
Lemma ag_rowV x : PV x -> o_rowV defaulted x = o_rowV o x.
Proof. intros Hx. simpl. destruct (proj1 (proj2 (proj2 (proj2 (proj2 (proj2 (proj2 (proj2 (proj2 W)))))))) x Hx) as (v & ->). reflexivity. Qed.
Lemma ag_rowD d : PD d -> o_rowD defaulted d = o_rowD o d.
Proof. intros Hx. simpl. destruct (proj2 (proj2 (proj2 (proj2 (proj2 (proj2 (proj2 (proj2 (proj2 W)))))))) d Hx) as (v & ->). reflexivity. Qed.

Lemma bind_ext {A B} (m m' : @M V D K P G A) (k k' : A -> @M V D K P G B) w :
  m w = m' w -> (forall a w', m w = (w', Ret a) -> k a w' = k' a w') -> bind m k w = bind m' k' w.
Proof.
  intros E H. unfold bind. rewrite <- E. destruct (m w) as [w' [a|e|]]; auto.
Qed.

Lemma lift_ret {A} (r : res A) w w' a : lift (V := V) (D := D) (K := K) (P := P) (G := G) r w = (w', Ret a) -> r = Ok a /\ w' = w.
Proof. destruct r; simpl; unfold ret, throw; intros E; inversion E; auto. Qed.

Lemma tracking_ag j x d a b c w : PV x -> PD d -> tracking defaulted j x d a b c w = tracking o j x d a b c w.
Proof.
  intros Hx Hd. unfold tracking. rewrite ag_rowV, ag_rowD by assumption. reflexivity.
Qed.

(** what the operations return stays in the sets *)
Lemma in_forward x d : PV x -> o_forward o x = Ok d -> PD d.
Proof. intros H E. destruct (proj1 (proj2 W) x H) as (d' & E' & Q). congruence. Qed.
Lemma in_gradg d v : PD d -> o_gradg o d = Ok v -> PV v.
Proof. intros H E. destruct (proj1 (proj2 (proj2 W)) d H) as (v' & E' & Q). congruence. Qed.
Lemma in_proxf x v : PV x -> o_proxf o x = Ok v -> PV v.
Proof. intros H E. destruct (proj1 (proj2 (proj2 (proj2 W))) x H) as (v' & E' & Q). congruence. Qed.
Lemma in_step p x y z g v g' : PV x -> PV y -> PV z -> o_step o p x y z g = (Ok v, g') -> PV v.
Proof. intros Hx Hy Hz E. destruct (proj1 (proj2 (proj2 (proj2 (proj2 (proj2 W))))) p x y z g Hx Hy Hz) as (v' & g1 & E' & Q). congruence. Qed.
Lemma in_skstep p x g v g' : PV x -> o_skstep o p x g = (Ok v, g') -> PV v.
Proof. intros Hx E. destruct (proj1 (proj2 (proj2 (proj2 (proj2 (proj2 (proj2 W)))))) p x g Hx) as (v' & g1 & E' & Q). congruence. Qed.
Lemma in_init g x g' : o_init o start g = (Ok x, g') -> PV x.
Proof. intros E. destruct (proj1 W g) as (v' & g1 & E' & Q). congruence. Qed.

Lemma with_rng_ret {A} (f : G -> res A * G) (w w' : world V D K P G) a :
  with_rng f w = (w', Ret a) -> f (w_rng w) = (Ok a, w_rng w') /\ w_inst w' = w_inst w.
Proof.
  unfold with_rng. destruct (f (w_rng w)) as [[b|e] g']; simpl; unfold ret, throw; intros E; inversion E; subst; auto.
Qed.

Lemma bind_ret {A B} (m : @M V D K P G A) (k : A -> @M V D K P G B) w w' b :
  bind m k w = (w', Ret b) -> exists a w1, m w = (w1, Ret a) /\ k a w1 = (w', Ret b).
Proof. unfold bind. destruct (m w) as [w1 [a|e|]]; [eauto| |]; discriminate. Qed.

Section Loops.
Variable prm : params.

Lemma myula_body_ag i j X d w : PV X -> PD d ->
  myula_body defaulted prm i j X d w = myula_body o prm i j X d w /\
  (forall w' j' X' d', myula_body o prm i j X d w = (w', Ret (j', X', d')) -> PV X' /\ PD d').
Proof.
  intros HX Hd. split.
  - unfold myula_body. rewrite ag_gradg, ag_proxf by assumption.
    apply bind_ext; [reflexivity|]. intros gr w1 E1. apply lift_ret in E1 as (E1 & ->).
    apply bind_ext; [reflexivity|]. intros pf w2 E2. apply lift_ret in E2 as (E2 & ->).
    apply bind_ext; [reflexivity|]. intros s w3 E3. inversion E3; subst s w3; clear E3.
    assert (ES : with_rng (o_step defaulted (i_delta (w_inst w)) X pf gr) w = with_rng (o_step o (i_delta (w_inst w)) X pf gr) w).
    { unfold with_rng. rewrite ag_step by eauto using in_gradg, in_proxf. reflexivity. }
    apply bind_ext; [exact ES|]. rewrite ES. intros Xp w4 E4. apply with_rng_ret in E4 as (E4 & _).
    assert (HXp : PV Xp) by (eapply in_step; [| | |exact E4]; eauto using in_gradg, in_proxf).
    rewrite ag_forward by assumption.
    apply bind_ext; [reflexivity|]. intros dp w5 E5. apply lift_ret in E5 as (E5 & ->).
    assert (Hdp : PD dp) by (eapply in_forward; [|exact E5]; assumption).
    destruct (p_nburn prm <=? i); [|reflexivity].
    apply bind_ext; [|reflexivity]. destruct (grid_hit prm i); [|reflexivity].
    rewrite ag_logpi by assumption. apply bind_ext; [reflexivity|]. intros [[a b] c] w6 E6.
    apply bind_ext; [apply tracking_ag; assumption|reflexivity].
  - intros w' j' X' d' E. unfold myula_body in E.
    apply bind_ret in E as (gr & w1 & E1 & E). apply lift_ret in E1 as (E1 & ->).
    apply bind_ret in E as (pf & w2 & E2 & E). apply lift_ret in E2 as (E2 & ->).
    apply bind_ret in E as (s & w3 & E3 & E). inversion E3; subst s w3; clear E3.
    apply bind_ret in E as (Xp & w4 & E4 & E). apply with_rng_ret in E4 as (E4 & _).
    apply bind_ret in E as (dp & w5 & E5 & E). apply lift_ret in E5 as (E5 & ->).
    assert (HXp : PV Xp) by (eapply in_step; [| | |exact E4]; eauto using in_gradg, in_proxf).
    assert (Hdp : PD dp) by (eapply in_forward; [|exact E5]; assumption).
    destruct (p_nburn prm <=? i); apply bind_ret in E as (q & w6 & E6 & E).
    + apply bind_ret in E as (q' & w7 & E7 & E). inversion E; subst; auto.
    + inversion E; subst; auto.
Qed.

Lemma myula_loop_ag : forall fuel i j X d w, PV X -> PD d ->
  myula_loop defaulted prm fuel i j X d w = myula_loop o prm fuel i j X d w.
Proof.
  induction fuel as [|fuel IH]; intros i j X d w HX Hd; simpl; [reflexivity|].
  destruct (j <? p_nsamples prm); [|reflexivity].
  destruct (myula_body_ag i j X d w HX Hd) as (E & C).
  apply bind_ext; [exact E|]. rewrite E. intros [[j' X'] d'] w' E'. destruct (C _ _ _ _ E'). apply IH; assumption.
Qed.

Lemma skrock_body_ag i j X d w : PV X -> PD d ->
  skrock_body defaulted prm i j X d w = skrock_body o prm i j X d w /\
  (forall w' j' X' d', skrock_body o prm i j X d w = (w', Ret (j', X', d')) -> PV X' /\ PD d').
Proof.
  intros HX Hd. split.
  - unfold skrock_body. apply bind_ext; [reflexivity|]. intros s w3 E3. inversion E3; subst s w3; clear E3.
    assert (ES : with_rng (o_skstep defaulted (i_delta (w_inst w)) X) w = with_rng (o_skstep o (i_delta (w_inst w)) X) w).
    { unfold with_rng. rewrite ag_skstep by assumption. reflexivity. }
    apply bind_ext; [exact ES|]. rewrite ES. intros Xp w4 E4. apply with_rng_ret in E4 as (E4 & _).
    assert (HXp : PV Xp) by (eapply in_skstep; [|exact E4]; assumption).
    rewrite ag_forward by assumption.
    apply bind_ext; [reflexivity|]. intros dp w5 E5. apply lift_ret in E5 as (E5 & ->).
    assert (Hdp : PD dp) by (eapply in_forward; [|exact E5]; assumption).
    apply bind_ext; [|reflexivity]. destruct (p_nburn prm <=? i); [|reflexivity]. destruct (grid_hit prm i); [|reflexivity].
    rewrite ag_logpi by assumption. apply bind_ext; [reflexivity|]. intros [[a b] c] w6 E6.
    apply bind_ext; [apply tracking_ag; assumption|reflexivity].
  - intros w' j' X' d' E. unfold skrock_body in E.
    apply bind_ret in E as (s & w3 & E3 & E). inversion E3; subst s w3; clear E3.
    apply bind_ret in E as (Xp & w4 & E4 & E). apply with_rng_ret in E4 as (E4 & _).
    apply bind_ret in E as (dp & w5 & E5 & E). apply lift_ret in E5 as (E5 & ->).
    assert (HXp : PV Xp) by (eapply in_skstep; [|exact E4]; assumption).
    assert (Hdp : PD dp) by (eapply in_forward; [|exact E5]; assumption).
    apply bind_ret in E as (q & w6 & E6 & E). apply bind_ret in E as (q' & w7 & E7 & E). inversion E; subst; auto.
Qed.

Lemma skrock_loop_ag : forall fuel i j X d w, PV X -> PD d ->
  skrock_loop defaulted prm fuel i j X d w = skrock_loop o prm fuel i j X d w.
Proof.
  induction fuel as [|fuel IH]; intros i j X d w HX Hd; simpl; [reflexivity|].
  destruct (j <? p_nsamples prm); [|reflexivity].
  destruct (skrock_body_ag i j X d w HX Hd) as (E & C).
  apply bind_ext; [exact E|]. rewrite E. intros [[j' X'] d'] w' E'. destruct (C _ _ _ _ E'). apply IH; assumption.
Qed.

Definition mala_in (c : mala_state V D K) : Prop :=
  PV (m_X c) /\ PD (m_preds c) /\ PV (m_gradg c) /\ PV (m_proxf c).

Lemma pxmala_body_ag tune i j c w : mala_in c ->
  pxmala_body defaulted prm tune i j c w = pxmala_body o prm tune i j c w /\
  (forall w' j' c', pxmala_body o prm tune i j c w = (w', Ret (j', c')) -> mala_in c').
Proof.
  intros (HX & Hd & Hg & Hp). split.
  - unfold pxmala_body. apply bind_ext; [reflexivity|]. intros s w3 E3. inversion E3; subst s w3; clear E3.
    assert (ES : with_rng (o_step defaulted (i_delta (w_inst w)) (m_X c) (m_proxf c) (m_gradg c)) w =
                 with_rng (o_step o (i_delta (w_inst w)) (m_X c) (m_proxf c) (m_gradg c)) w).
    { unfold with_rng. rewrite ag_step by assumption. reflexivity. }
    apply bind_ext; [exact ES|]. rewrite ES. intros Xp w4 E4. apply with_rng_ret in E4 as (E4 & _).
    assert (HXp : PV Xp) by (eapply in_step; [| | |exact E4]; assumption).
    rewrite ag_forward by assumption.
    apply bind_ext; [reflexivity|]. intros dp w5 E5. apply lift_ret in E5 as (E5 & ->).
    assert (Hdp : PD dp) by (eapply in_forward; [|exact E5]; assumption).
    rewrite ag_gradg, ag_proxf by assumption.
    apply bind_ext; [reflexivity|]. intros gp w6 E6. apply lift_ret in E6 as (E6 & ->).
    assert (Hgp : PV gp) by (eapply in_gradg; [|exact E6]; assumption).
    apply bind_ext; [reflexivity|]. intros pp w7 E7. apply lift_ret in E7 as (E7 & ->).
    assert (Hpp : PV pp) by (eapply in_proxf; [|exact E7]; assumption).
    rewrite !ag_logtrans by assumption. rewrite ag_logpi by assumption.
    apply bind_ext; [reflexivity|]. intros q1 w8 E8. apply bind_ext; [reflexivity|]. intros q2 w9 E9.
    apply bind_ext; [reflexivity|]. intros [[a b] t] w10 E10. apply bind_ext; [reflexivity|]. intros u w11 E11.
    cbn [o_kltb o_ksub o_kadd defaulted].
    apply bind_ext; [reflexivity|]. intros c' w12 E12.
    assert (Hc' : PV (m_X c') /\ PD (m_preds c')).
    { destruct (o_kltb o u _); apply bind_ret in E12 as (q & w13 & _ & E12); inversion E12; subst; simpl; auto. }
    apply bind_ext; [reflexivity|]. intros q w13 E13.
    apply bind_ext; [|reflexivity]. destruct (p_nburn prm <=? i); [|reflexivity].
    match goal with |- (if ?b then _ else _) w13 = _ => destruct b; [|reflexivity] end.
    apply bind_ext; [apply tracking_ag; tauto|reflexivity].
  - intros w' j' c' E. unfold pxmala_body in E.
    apply bind_ret in E as (s & w3 & E3 & E). inversion E3; subst s w3; clear E3.
    apply bind_ret in E as (Xp & w4 & E4 & E). apply with_rng_ret in E4 as (E4 & _).
    apply bind_ret in E as (dp & w5 & E5 & E). apply lift_ret in E5 as (E5 & ->).
    apply bind_ret in E as (gp & w6 & E6 & E). apply lift_ret in E6 as (E6 & ->).
    apply bind_ret in E as (pp & w7 & E7 & E). apply lift_ret in E7 as (E7 & ->).
    assert (HXp : PV Xp) by (eapply in_step; [| | |exact E4]; assumption).
    assert (Hdp : PD dp) by (eapply in_forward; [|exact E5]; assumption).
    assert (Hgp : PV gp) by (eapply in_gradg; [|exact E6]; assumption).
    assert (Hpp : PV pp) by (eapply in_proxf; [|exact E7]; assumption).
    apply bind_ret in E as (q1 & w8 & E8 & E). apply bind_ret in E as (q2 & w9 & E9 & E).
    apply bind_ret in E as ([[a b] t] & w10 & E10 & E). apply bind_ret in E as (u & w11 & E11 & E).
    apply bind_ret in E as (c1 & w12 & E12 & E).
    assert (Hc1 : mala_in c1).
    { destruct (o_kltb o u _); apply bind_ret in E12 as (q & w13 & _ & E12); inversion E12; subst; unfold mala_in; simpl; auto. }
    apply bind_ret in E as (q3 & w14 & E14 & E). apply bind_ret in E as (q4 & w15 & E15 & E).
    apply bind_ret in E as (q5 & w16 & E16 & E). inversion E; subst. exact Hc1.
Qed.

Lemma pxmala_loop_ag tune : forall fuel i j c w, mala_in c ->
  pxmala_loop defaulted prm tune fuel i j c w = pxmala_loop o prm tune fuel i j c w.
Proof.
  induction fuel as [|fuel IH]; intros i j c w Hc; simpl; [reflexivity|].
  destruct (j <? p_nsamples prm); [|reflexivity].
  destruct (pxmala_body_ag tune i j c w Hc) as (E & C).
  apply bind_ext; [exact E|]. rewrite E. intros [j' c'] w' E'. apply IH. eapply C; exact E'.
Qed.

Lemma initial_ag w :
  initial_sample defaulted start w = initial_sample o start w /\
  (forall w' X d, initial_sample o start w = (w', Ret (X, d)) -> PV X /\ PD d).
Proof.
  split.
  - unfold initial_sample.
    assert (E0 : with_rng (o_init defaulted start) w = with_rng (o_init o start) w).
    { unfold with_rng. simpl. destruct (proj1 W (w_rng w)) as (x & g' & -> & _). reflexivity. }
    apply bind_ext; [exact E0|]. rewrite E0. intros X w1 E1. apply with_rng_ret in E1 as (E1 & _).
    rewrite ag_forward by (eapply in_init; exact E1). reflexivity.
  - intros w' X d E. unfold initial_sample in E.
    apply bind_ret in E as (Y & w1 & E1 & E). apply with_rng_ret in E1 as (E1 & _).
    apply bind_ret in E as (d1 & w2 & E2 & E). apply lift_ret in E2 as (E2 & ->). inversion E; subst.
    assert (PV X) by (eapply in_init; exact E1). split; [assumption|eapply in_forward; [|exact E2]; assumption].
Qed.

Lemma myula_run_ag fuel w : myula_run defaulted prm fuel start w = myula_run o prm fuel start w.
Proof.
  unfold myula_run. destruct (initial_ag w) as (E & C). apply bind_ext; [exact E|]. rewrite E.
  intros [X d] w' E'. destruct (C _ _ _ E'). apply myula_loop_ag; assumption.
Qed.
Lemma skrock_run_ag fuel w : skrock_run defaulted prm fuel start w = skrock_run o prm fuel start w.
Proof.
  unfold skrock_run. destruct (initial_ag w) as (E & C). apply bind_ext; [exact E|]. rewrite E.
  intros [X d] w' E'. destruct (C _ _ _ E'). apply skrock_loop_ag; assumption.
Qed.
Lemma pxmala_run_ag tune fuel w : pxmala_run defaulted prm tune fuel start w = pxmala_run o prm tune fuel start w.
Proof.
  unfold pxmala_run. apply bind_ext; [reflexivity|]. intros s1 w1 _. apply bind_ext; [reflexivity|]. intros s2 w2 _.
  apply bind_ext; [reflexivity|]. intros s3 w3 _. apply bind_ext; [reflexivity|]. intros s4 w4 _.
  destruct (initial_ag w4) as (E & C). apply bind_ext; [exact E|]. rewrite E. intros [X d] w5 E5.
  destruct (C _ _ _ E5) as (HX & Hd). rewrite ag_gradg, ag_proxf, ag_logpi by assumption.
  apply bind_ext; [reflexivity|]. intros gr w6 E6. apply lift_ret in E6 as (E6 & ->).
  apply bind_ext; [reflexivity|]. intros pf w7 E7. apply lift_ret in E7 as (E7 & ->).
  apply bind_ext; [reflexivity|]. intros [[a b] c] w8 E8.
  apply pxmala_loop_ag. unfold mala_in. simpl. split; [exact HX|]. split; [exact Hd|].
  split; [eapply in_gradg; [|exact E6]|eapply in_proxf; [|exact E7]]; assumption.
Qed.
End Loops.
End Works.
