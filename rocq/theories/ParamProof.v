(** The sampler loops treat their representation parametrically. *)
From Coq Require Import List ZArith Lia Bool String.
From Verif Require Import PyBase PyBaseFacts Sampler ParamSpec.
Import ListNotations.
Open Scope string_scope.
Open Scope list_scope.

Section Lists.
Context {A B : Type}.
Variable R : A -> B -> Prop.
Lemma f2_len l m : Forall2 R l m -> List.length l = List.length m.
Proof. intros F. induction F; cbn; congruence. Qed.
Lemma f2_upd l m k a b : Forall2 R l m -> R a b -> Forall2 R (upd l k a) (upd m k b).
Proof.
  intros F H. revert k. induction F as [|x y l m Hxy F IH]; intros k; [constructor|]. destruct k; constructor; auto.
Qed.
Lemma f2_setitem l m k a b : Forall2 R l m -> R a b -> rel_res (Forall2 R) (py_setitem l k a) (py_setitem m k b).
Proof.
  intros F H. unfold py_setitem. rewrite (f2_len _ _ F).
  destruct (((if k <? 0 then _ else _) <? 0) || _)%Z%bool; cbn; [reflexivity|]. now apply f2_upd.
Qed.
Lemma f2_nth l m k : Forall2 R l m ->
  match nth_error l k, nth_error m k with Some a, Some b => R a b | None, None => True | _, _ => False end.
Proof. intros F. revert k. induction F as [|x y l m Hxy F IH]; intros [|k]; cbn; auto. apply IH. Qed.
Lemma f2_index l m k : Forall2 R l m -> rel_res R (py_index l k) (py_index m k).
Proof.
  intros F. unfold py_index. rewrite (f2_len _ _ F).
  destruct (((if k <? 0 then _ else _) <? 0) || _)%Z%bool; cbn; [reflexivity|].
  match goal with |- context [nth_error l ?n] => pose proof (f2_nth l m n F) as H end.
  destruct (nth_error l _), (nth_error m _); cbn; try contradiction; auto.
Qed.
Lemma f2_repeat a b n : R a b -> Forall2 R (repeat a n) (repeat b n).
Proof. intros H. induction n; constructor; auto. Qed.
End Lists.

Local Notation "'do' x <- m ; k" := (bind m (fun x => k))
  (at level 200, x pattern, m at level 100, k at level 200, right associativity).

Section Sim.
Context {V1 D1 K1 P1 G1 I1 V2 D2 K2 P2 G2 I2 : Type}.
Variable RV : V1 -> V2 -> Prop.
Variable RD : D1 -> D2 -> Prop.
Variable RK : K1 -> K2 -> Prop.
Variable RP : P1 -> P2 -> Prop.
Variable RG : G1 -> G2 -> Prop.
Variable RI : I1 -> I2 -> Prop.
Notation RW := (rel_world RV RD RK RP RG).
Notation RS := (rel_inst RV RD RK RP).
Notation RE := (rel_event RK).

Definition psim {A B} (R : A -> B -> Prop) (m : @M V1 D1 K1 P1 G1 A) (n : @M V2 D2 K2 P2 G2 B) : Prop :=
  forall w v, RW w v -> RW (fst (m w)) (fst (n v)) /\ rel_out R (snd (m w)) (snd (n v)).

Lemma ps_ret {A B} (R : A -> B -> Prop) a b : R a b -> psim R (ret a) (ret b).
Proof. intros H w v W. split; [exact W|exact H]. Qed.
Lemma ps_throw {A B} (R : A -> B -> Prop) e : psim R (throw e) (throw e).
Proof. intros w v W. split; [exact W|reflexivity]. Qed.
Lemma ps_nofuel {A B} (R : A -> B -> Prop) : psim R no_fuel no_fuel.
Proof. intros w v W. split; [exact W|exact I]. Qed.
Lemma ps_bind {A B A' B'} (R : A -> B -> Prop) (R' : A' -> B' -> Prop) m n k l :
  psim R m n -> (forall a b, R a b -> psim R' (k a) (l b)) -> psim R' (bind m k) (bind n l).
Proof.
  intros Hm Hk w v W. unfold bind. specialize (Hm w v W).
  destruct (m w) as [w' r], (n v) as [v' s]. cbn [fst snd] in Hm. destruct Hm as (W' & Hr).
  destruct r, s; cbn in Hr; try contradiction; [apply Hk; assumption|subst; split; [exact W'|reflexivity]|split; [exact W'|exact I]].
Qed.
Lemma ps_lift {A B} (R : A -> B -> Prop) r s : rel_res R r s -> psim R (lift r) (lift s).
Proof. destruct r, s; cbn; try contradiction; [apply ps_ret|intros ->; apply ps_throw]. Qed.
Lemma ps_rng {A B} (R : A -> B -> Prop) f h :
  (forall g g', RG g g' -> rel_drawn RG R (f g) (h g')) -> psim R (with_rng f) (with_rng h).
Proof.
  intros H w v (W1 & W2). unfold with_rng. specialize (H _ _ W2).
  destruct (f (w_rng w)) as [r g], (h (w_rng v)) as [s g']. destruct H as (Hr & Hg). cbn [fst snd] in *.
  apply ps_lift; [exact Hr|]. split; [exact W1|exact Hg].
Qed.
Lemma ps_get : psim RS get_inst get_inst.
Proof. intros w v W. split; [exact W|exact (proj1 W)]. Qed.
Lemma ps_put s t : RS s t -> psim eq (put_inst s) (put_inst t).
Proof. intros H w v W. split; [split; [exact H|exact (proj2 W)]|reflexivity]. Qed.

Ltac inst_fields H := destruct H as [H1 H2 H3 H4 H5 H6 H7 H8 H9]; constructor; cbn; auto.

Lemma ps_print e e' : RE e e' -> psim eq (print e) (print e').
Proof.
  intros H. unfold print. eapply ps_bind; [apply ps_get|]. intros s t Hs. apply ps_put.
  inst_fields Hs. apply Forall2_app; [exact H9|]. constructor; [exact H|constructor].
Qed.

Lemma ps_store {A B} (R : A -> B -> Prop) get set get' set' j (v : res A) (v' : res B) :
  (forall s t, RS s t -> rel_arr R (get s) (get' t)) ->
  (forall s t a b, RS s t -> rel_arr R a b -> RS (set a s) (set' b t)) ->
  rel_res R v v' -> psim eq (store get set j v) (store get' set' j v').
Proof.
  intros Hg Hs Hv. unfold store. eapply ps_bind; [apply ps_get|]. intros s t Hst. specialize (Hg s t Hst).
  destruct (get s) as [l|], (get' t) as [m|]; cbn in Hg; try contradiction; [|now apply ps_ret].
  eapply ps_bind; [apply ps_lift, Hv|]. intros a b Hab.
  eapply ps_bind; [apply ps_lift, (f2_setitem R l m j a b Hg Hab)|]. intros l' m' Hl. apply ps_put. now apply Hs.
Qed.
Lemma ps_read {A B} (R : A -> B -> Prop) (get : inst V1 D1 K1 P1 -> option (list A)) (get' : inst V2 D2 K2 P2 -> option (list B)) k :
  (forall s t, RS s t -> rel_arr R (get s) (get' t)) -> psim R (read_attr get k) (read_attr get' k).
Proof.
  intros Hg. unfold read_attr. eapply ps_bind; [apply ps_get|]. intros s t Hst. specialize (Hg s t Hst).
  destruct (get s) as [l|], (get' t) as [m|]; cbn in Hg; try contradiction; [|apply ps_throw].
  apply ps_lift, f2_index, Hg.
Qed.
Lemma ps_print_saved j : psim eq (print_saved j) (print_saved j).
Proof.
  unfold print_saved. eapply ps_bind; [apply (ps_read RK); apply ri_logPi|]. intros a a' Ha.
  eapply ps_bind; [apply (ps_read RK); apply ri_L2s|]. intros b b' Hb.
  eapply ps_bind; [apply (ps_read RK); apply ri_priors|]. intros c c' Hc. apply ps_print. now constructor.
Qed.
Lemma ps_append_acc a : psim eq (append_acc a) (append_acc a).
Proof.
  unfold append_acc. eapply ps_bind; [apply ps_get|]. intros s t Hst. rewrite (ri_acc _ _ _ _ _ _ Hst).
  destruct (i_acc t); [|apply ps_throw]. apply ps_put. inst_fields Hst.
Qed.
Lemma ps_append_delta : psim eq append_delta append_delta.
Proof.
  unfold append_delta. eapply ps_bind; [apply ps_get|]. intros s t Hst. pose proof (ri_deltas _ _ _ _ _ _ Hst) as H.
  destruct (i_deltas s), (i_deltas t); cbn in H; try contradiction; [|apply ps_throw]. apply ps_put. inst_fields Hst.
  apply Forall2_app; [exact H|]. constructor; [exact H8|constructor].
Qed.

Variable o : ops V1 D1 K1 P1 G1 I1.
Variable u : ops V2 D2 K2 P2 G2 I2.
Hypothesis HO : rel_ops RV RD RK RP RG RI o u.

Lemma ps_tracking j x y d e a b c a' b' c' : RV x y -> RD d e -> RK a a' -> RK b b' -> RK c c' ->
  psim eq (tracking o j x d a b c) (tracking u j y e a' b' c').
Proof.
  intros Hx Hd Ha Hb Hc. unfold tracking.
  eapply ps_bind; [apply (ps_store RK); [apply ri_logPi|intros s t l m Hs Hl; inst_fields Hs|apply (ro_rowK _ _ _ _ _ _ _ _ HO), Ha]|intros _ _ _].
  eapply ps_bind; [apply (ps_store RK); [apply ri_L2s|intros s t l m Hs Hl; inst_fields Hs|apply (ro_rowK _ _ _ _ _ _ _ _ HO), Hb]|intros _ _ _].
  eapply ps_bind; [apply (ps_store RK); [apply ri_priors|intros s t l m Hs Hl; inst_fields Hs|apply (ro_rowK _ _ _ _ _ _ _ _ HO), Hc]|intros _ _ _].
  eapply ps_bind; [apply (ps_store RD); [apply ri_preds|intros s t l m Hs Hl; inst_fields Hs|apply (ro_rowD _ _ _ _ _ _ _ _ HO), Hd]|intros _ _ _].
  apply (ps_store RV); [apply ri_chain|intros s t l m Hs Hl; inst_fields Hs|apply (ro_rowV _ _ _ _ _ _ _ _ HO), Hx].
Qed.
Lemma ps_tune i : psim eq (tune_delta o i) (tune_delta u i).
Proof.
  unfold tune_delta. eapply ps_bind; [apply (ps_read eq)|].
  { intros s t Hst. rewrite (ri_acc _ _ _ _ _ _ Hst). destruct (i_acc t) as [l|]; cbn; [|exact I]. induction l; constructor; auto. }
  intros a a' <-. eapply ps_bind; [apply ps_get|]. intros s t Hst. apply ps_put. inst_fields Hst. now apply (ro_tune _ _ _ _ _ _ _ _ HO).
Qed.
Definition rel_vd (p : V1 * D1) (q : V2 * D2) : Prop := RV (fst p) (fst q) /\ RD (snd p) (snd q).
Lemma ps_initial i i' : RI i i' -> psim rel_vd (initial_sample o i) (initial_sample u i').
Proof.
  intros H. unfold initial_sample. eapply ps_bind; [apply ps_rng; intros g g' Hg; now apply (ro_init _ _ _ _ _ _ _ _ HO)|].
  intros x y Hx. eapply ps_bind; [apply ps_lift, (ro_forward _ _ _ _ _ _ _ _ HO), Hx|]. intros d e Hd. apply ps_ret. now split.
Qed.

Variable prm : params.
Definition rel_jvd (p : Z * V1 * D1) (q : Z * V2 * D2) : Prop :=
  fst (fst p) = fst (fst q) /\ RV (snd (fst p)) (snd (fst q)) /\ RD (snd p) (snd q).

Lemma ps_save i j x y d e : RV x y -> RD d e ->
  psim eq (if grid_hit prm i then
             do t <- lift (o_logpi o x d);
             let '(logPi, L2, prior) := t in
             do _ <- tracking o j x d logPi L2 prior; ret (j + 1)%Z
           else ret j)
          (if grid_hit prm i then
             do t <- lift (o_logpi u y e);
             let '(logPi, L2, prior) := t in
             do _ <- tracking u j y e logPi L2 prior; ret (j + 1)%Z
           else ret j).
Proof.
  intros Hx Hd. destruct (grid_hit prm i); [|now apply ps_ret].
  eapply ps_bind; [apply ps_lift, (ro_logpi _ _ _ _ _ _ _ _ HO); eassumption|].
  intros [[a b] c] [[a' b'] c'] (Ha & Hb & Hc). eapply ps_bind; [apply ps_tracking; assumption|]. intros. now apply ps_ret.
Qed.

Lemma ps_myula_body i j x y d e : RV x y -> RD d e ->
  psim rel_jvd (myula_body o prm i j x d) (myula_body u prm i j y e).
Proof.
  intros Hx Hd. unfold myula_body. eapply ps_bind; [apply ps_lift, (ro_gradg _ _ _ _ _ _ _ _ HO), Hd|]. intros gr gr' Hgr.
  eapply ps_bind; [apply ps_lift, (ro_proxf _ _ _ _ _ _ _ _ HO), Hx|]. intros p p' Hp.
  eapply ps_bind; [apply ps_get|]. intros s t Hst.
  eapply ps_bind. { apply ps_rng. intros g g' Hg. apply (ro_step _ _ _ _ _ _ _ _ HO); eauto. apply (ri_delta _ _ _ _ _ _ Hst). }
  intros x' y' Hx'. eapply ps_bind; [apply ps_lift, (ro_forward _ _ _ _ _ _ _ _ HO), Hx'|]. intros d' e' Hd'.
  destruct (p_nburn prm <=? i)%Z.
  - eapply ps_bind; [apply ps_save; assumption|]. intros j1 j2 <-.
    eapply (ps_bind eq). { destruct (progress_due prm i); [apply ps_print_saved|now apply ps_ret]. } intros _ _ _.
    apply ps_ret. repeat split; assumption.
  - eapply (ps_bind eq). { destruct (progress_due prm i); [apply ps_print; constructor|now apply ps_ret]. } intros _ _ _.
    apply ps_ret. repeat split; assumption.
Qed.
Lemma ps_myula_loop fuel : forall i j x y d e, RV x y -> RD d e ->
  psim eq (myula_loop o prm fuel i j x d) (myula_loop u prm fuel i j y e).
Proof.
  induction fuel as [|fuel IH]; intros i j x y d e Hx Hd; cbn [myula_loop]; destruct (j <? p_nsamples prm)%Z;
    try (apply ps_print; constructor); [apply ps_nofuel|].
  eapply ps_bind; [apply ps_myula_body; eassumption|]. intros [[j1 x1] d1] [[j2 x2] d2] (E & Hx1 & Hd1). cbn in *. subst. now apply IH.
Qed.
Lemma ps_myula fuel i i' : RI i i' -> psim eq (myula_run o prm fuel i) (myula_run u prm fuel i').
Proof.
  intros H. unfold myula_run. eapply ps_bind; [apply ps_initial, H|]. intros [x d] [y e] (Hx & Hd). now apply ps_myula_loop.
Qed.

Hypothesis HSK : rel_skstep RV RP RG o u.
Lemma ps_skrock_body i j x y d e : RV x y -> RD d e ->
  psim rel_jvd (skrock_body o prm i j x d) (skrock_body u prm i j y e).
Proof.
  intros Hx Hd. unfold skrock_body. eapply ps_bind; [apply ps_get|]. intros s t Hst.
  eapply ps_bind. { apply ps_rng. intros g g' Hg. apply HSK; eauto. apply (ri_delta _ _ _ _ _ _ Hst). }
  intros x' y' Hx'. eapply ps_bind; [apply ps_lift, (ro_forward _ _ _ _ _ _ _ _ HO), Hx'|]. intros d' e' Hd'.
  eapply (ps_bind eq). { destruct (p_nburn prm <=? i)%Z; [apply ps_save; assumption|now apply ps_ret]. } intros j1 j2 <-.
  eapply (ps_bind eq). { destruct (progress_due prm i); [apply ps_print_saved|now apply ps_ret]. } intros _ _ _.
  apply ps_ret. repeat split; assumption.
Qed.
Lemma ps_skrock_loop fuel : forall i j x y d e, RV x y -> RD d e ->
  psim eq (skrock_loop o prm fuel i j x d) (skrock_loop u prm fuel i j y e).
Proof.
  induction fuel as [|fuel IH]; intros i j x y d e Hx Hd; cbn [skrock_loop]; destruct (j <? p_nsamples prm)%Z;
    try (apply ps_print; constructor); [apply ps_nofuel|].
  eapply ps_bind; [apply ps_skrock_body; eassumption|]. intros [[j1 x1] d1] [[j2 x2] d2] (E & Hx1 & Hd1). cbn in *. subst. now apply IH.
Qed.
Lemma ps_skrock fuel i i' : RI i i' -> psim eq (skrock_run o prm fuel i) (skrock_run u prm fuel i').
Proof.
  intros H. unfold skrock_run. eapply ps_bind; [apply ps_initial, H|]. intros [x d] [y e] (Hx & Hd). now apply ps_skrock_loop.
Qed.

Record rel_mala (c : mala_state V1 D1 K1) (e : mala_state V2 D2 K2) : Prop := {
  rm_X : RV (m_X c) (m_X e); rm_preds : RD (m_preds c) (m_preds e);
  rm_gradg : RV (m_gradg c) (m_gradg e); rm_proxf : RV (m_proxf c) (m_proxf e);
  rm_logpi : RK (m_logpi c) (m_logpi e); rm_L2 : RK (m_L2 c) (m_L2 e); rm_prior : RK (m_prior c) (m_prior e) }.
Definition rel_jm (p : Z * mala_state V1 D1 K1) (q : Z * mala_state V2 D2 K2) : Prop := fst p = fst q /\ rel_mala (snd p) (snd q).

Lemma ps_pxmala_body tune i j c e : rel_mala c e ->
  psim rel_jm (pxmala_body o prm tune i j c) (pxmala_body u prm tune i j e).
Proof.
  intros [C1 C2 C3 C4 C5 C6 C7]. unfold pxmala_body. eapply ps_bind; [apply ps_get|]. intros s t Hst.
  pose proof (ri_delta _ _ _ _ _ _ Hst) as HD.
  eapply ps_bind. { apply ps_rng. intros g g' Hg. apply (ro_step _ _ _ _ _ _ _ _ HO); eauto. }
  intros x' y' Hx'. eapply ps_bind; [apply ps_lift, (ro_forward _ _ _ _ _ _ _ _ HO), Hx'|]. intros d' e' Hd'.
  eapply ps_bind; [apply ps_lift, (ro_gradg _ _ _ _ _ _ _ _ HO), Hd'|]. intros gr gr' Hgr.
  eapply ps_bind; [apply ps_lift, (ro_proxf _ _ _ _ _ _ _ _ HO), Hx'|]. intros p p' Hp.
  eapply ps_bind; [apply ps_lift, (ro_logtrans _ _ _ _ _ _ _ _ HO); eassumption|]. intros q1 q1' Hq1.
  eapply ps_bind; [apply ps_lift, (ro_logtrans _ _ _ _ _ _ _ _ HO); eassumption|]. intros q2 q2' Hq2.
  eapply ps_bind; [apply ps_lift, (ro_logpi _ _ _ _ _ _ _ _ HO); eassumption|].
  intros [[a b] k] [[a' b'] k'] (Ha & Hb & Hk). cbn [fst snd] in *.
  eapply (ps_bind RK).
  { apply ps_rng. intros g g' Hg. destruct (ro_logrand _ _ _ _ _ _ _ _ HO g g' Hg) as (L1 & L2).
    destruct (o_logrand o g), (o_logrand u g'). split; assumption. }
  intros lu lu' Hlu.
  assert (HA : RK (o_ksub o (o_ksub o (o_kadd o q2 a) q1) (m_logpi c)) (o_ksub u (o_ksub u (o_kadd u q2' a') q1') (m_logpi e))).
  { apply (ro_ksub _ _ _ _ _ _ _ _ HO); [|assumption]. apply (ro_ksub _ _ _ _ _ _ _ _ HO); [|assumption]. now apply (ro_kadd _ _ _ _ _ _ _ _ HO). }
  rewrite (ro_kltb _ _ _ _ _ _ _ _ HO _ _ _ _ Hlu HA).
  set (acc := o_kltb u lu' _).
  eapply (ps_bind rel_mala).
  { destruct acc; (eapply ps_bind; [apply ps_append_acc|]; intros _ _ _; apply ps_ret; constructor; assumption). }
  intros c1 c2 Hc. destruct Hc as [E1 E2 E3 E4 E5 E6 E7].
  eapply (ps_bind eq).
  { destruct tune; [|now apply ps_ret]. eapply ps_bind; [apply ps_tune|]. intros _ _ _. apply ps_append_delta. }
  intros _ _ _. eapply (ps_bind eq).
  { destruct (p_nburn prm <=? i)%Z; [|now apply ps_ret]. destruct (grid_hit prm i && acc)%bool; [|now apply ps_ret].
    eapply ps_bind; [apply ps_tracking; assumption|]. intros _ _ _. now apply ps_ret. }
  intros j1 j2 <-. eapply (ps_bind eq).
  { destruct (progress_due prm i); [|now apply ps_ret]. eapply ps_bind; [apply ps_get|]. intros s' t' Hs'.
    rewrite (ri_acc _ _ _ _ _ _ Hs'). apply ps_print. now constructor. }
  intros _ _ _. apply ps_ret. split; [reflexivity|]. constructor; assumption.
Qed.
Lemma ps_pxmala_loop tune fuel : forall i j c e, rel_mala c e ->
  psim eq (pxmala_loop o prm tune fuel i j c) (pxmala_loop u prm tune fuel i j e).
Proof.
  induction fuel as [|fuel IH]; intros i j c e Hc; cbn [pxmala_loop]; destruct (j <? p_nsamples prm)%Z;
    try (apply ps_print; constructor); [apply ps_nofuel|].
  eapply ps_bind; [apply ps_pxmala_body; eassumption|]. intros [j1 c1] [j2 c2] (E & Hc1). cbn in *. subst. now apply IH.
Qed.
Lemma ps_pxmala tune fuel i i' : RI i i' -> psim eq (pxmala_run o prm tune fuel i) (pxmala_run u prm tune fuel i').
Proof.
  intros H. unfold pxmala_run. eapply ps_bind; [apply ps_get|]. intros s t Hst.
  eapply ps_bind; [apply ps_put; inst_fields Hst|]. intros _ _ _.
  eapply ps_bind; [apply ps_get|]. intros s1 t1 Hst1.
  eapply ps_bind; [apply ps_put; inst_fields Hst1|]. intros _ _ _.
  eapply ps_bind; [apply ps_initial, H|]. intros [x d] [y e] (Hx & Hd). cbn [fst snd] in *.
  eapply ps_bind; [apply ps_lift, (ro_gradg _ _ _ _ _ _ _ _ HO), Hd|]. intros gr gr' Hgr.
  eapply ps_bind; [apply ps_lift, (ro_proxf _ _ _ _ _ _ _ _ HO), Hx|]. intros p p' Hp.
  eapply ps_bind; [apply ps_lift, (ro_logpi _ _ _ _ _ _ _ _ HO); eassumption|].
  intros [[a b] k] [[a' b'] k'] (Ha & Hb & Hk). apply ps_pxmala_loop. constructor; assumption.
Qed.

Lemma new_rel delta delta' : RP delta delta' -> rel_res RS (new_sampler o prm delta) (new_sampler u prm delta').
Proof.
  intros H. unfold new_sampler, opt_array, np_zeros.
  pose proof (ro_zeroV _ _ _ _ _ _ _ _ HO) as ZV. pose proof (ro_zeroD _ _ _ _ _ _ _ _ HO) as ZD. pose proof (ro_zeroK _ _ _ _ _ _ _ _ HO) as ZK.
  destruct (p_nsamples prm <? 0)%Z;
    destruct (str_in "logposterior" _), (str_in "predictions" _), (str_in "chain" _), (str_in "L2" _), (str_in "prior" _);
    cbn; try reflexivity; constructor; cbn; auto using f2_repeat.
Qed.
End Sim.
