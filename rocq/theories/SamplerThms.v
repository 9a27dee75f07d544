(** Consequences of the run descriptions of ScheduleProof.v, for MYULA and SKROCK. *)
From Coq Require Import List ZArith Lia Bool String.
From Verif Require Import PyBase PyBaseFacts Sampler SamplerSpec SamplerFacts MyulaProof LoopProof ScheduleProof.
Import ListNotations.
Open Scope Z_scope.

Lemma last_cons {A} (s q : A) t : last (s :: t) q = last t s.
Proof. revert s q. induction t as [|a t IH]; intros; [reflexivity|]. change (last (a :: t) q = last (a :: t) s). rewrite !IH. reflexivity. Qed.

Lemma nth_error_ext {A} (l m : list A) : (forall j, nth_error l j = nth_error m j) -> l = m.
Proof.
  revert m. induction l as [|x l IH]; intros [|y m] H; auto.
  - specialize (H 0%nat). discriminate.
  - specialize (H 0%nat). discriminate.
  - pose proof (H 0%nat) as H0. simpl in H0. inv H0. f_equal. apply IH. intros j. exact (H (S j)).
Qed.

Section PathDet.
Context {St : Type} (R R' : St -> St -> Prop).
Hypothesis det : forall s a b, R s a -> R' s b -> a = b.
Lemma path_det s l l' k a b :
  path R s l -> path R' s l' -> nth_error l k = Some a -> nth_error l' k = Some b -> a = b.
Proof.
  intros H. revert l' k. induction H as [s|s s' l HR HP IH]; intros l' k H' E E'.
  - destruct k; discriminate.
  - inv H'; [destruct k; discriminate|].
    assert (s' = s'0) by (eapply det; eauto). subst s'0.
    destruct k as [|k]; simpl in *; [congruence|]. eapply IH; eauto.
Qed.
Lemma path_det_eq s l l' :
  path R s l -> path R' s l' -> List.length l = List.length l' -> l = l'.
Proof.
  intros H. revert l'. induction H as [s|s s' l HR HP IH]; intros l' H' E.
  - destruct l'; [reflexivity|discriminate].
  - inv H'; [discriminate|]. assert (s' = s'0) by (eapply det; eauto). subst s'0.
    f_equal. apply IH; auto.
Qed.
End PathDet.

Lemma path_mono {St} (R R' : St -> St -> Prop) s l :
  (forall a b, R a b -> R' a b) -> path R s l -> path R' s l.
Proof. intros HM H. induction H; constructor; auto. Qed.

(** every visited state of a path satisfies what every transition establishes *)
Lemma path_inv {St} (R : St -> St -> Prop) (Q : St -> Prop) s l :
  (forall a b, R a b -> Q b) -> path R s l -> forall k x, nth_error l k = Some x -> Q x.
Proof.
  intros HM H. induction H as [|s s' l HR HP IH]; intros [|k] x; simpl; try discriminate.
  - intros E; inv E; eauto.
  - apply IH.
Qed.

Section Thms.
Context {V D K P G I : Type}.
Notation ops := (ops V D K P G I).
Notation inst := (inst V D K P).
Notation world := (world V D K P G).
Notation entry := (entry V D K).
Notation cstate := (cstate V D G).

(** The transition relations we use. *)
Record good_trans (tr : ops -> P -> cstate -> cstate -> Prop) : Prop := {
  gt_det : forall o d s a b, tr o d s a -> tr o d s b -> a = b;
  gt_fwd : forall o d s x e g, tr o d s (x, e, g) -> o_forward o x = Ok e;
  gt_mono : forall o1 o2 d s a, completes o1 o2 -> tr o1 d s a -> tr o2 d s a
}.

Lemma myula_good : good_trans myula_trans.
Proof.
  split.
  - intros o d [[x e] g] [[x1 e1] g1] [[x2 e2] g2] (a1 & a2 & A1 & A2 & A3 & A4) (b1 & b2 & B1 & B2 & B3 & B4).
    congruence.
  - intros o d [[x0 e0] g0] x e g (a1 & a2 & A1 & A2 & A3 & A4). exact A4.
  - intros o1 o2 d [[x e] g] [[x1 e1] g1] C (a1 & a2 & A1 & A2 & A3 & A4).
    destruct C as (C1 & C2 & C3 & C4 & C5 & C6 & _). exists a1, a2. auto 10.
Qed.

Lemma skrock_good : good_trans skrock_trans.
Proof.
  split.
  - intros o d [[x e] g] [[x1 e1] g1] [[x2 e2] g2] (A3 & A4) (B3 & B4). congruence.
  - intros o d [[x0 e0] g0] x e g (A3 & A4). exact A4.
  - intros o1 o2 d [[x e] g] [[x1 e1] g1] C (A3 & A4).
    destruct C as (C1 & C2 & C3 & C4 & C5 & C6 & C7 & _). split; auto.
Qed.

Lemma starts_det (o : ops) st g (a b : cstate) : starts o st g a -> starts o st g b -> a = b.
Proof. destruct a as [[x d] g1], b as [[x' d'] g2]. intros (A & B) (A' & B'). congruence. Qed.

Lemma starts_mono (o1 o2 : ops) st g (a : cstate) : completes o1 o2 -> starts o1 st g a -> starts o2 st g a.
Proof. destruct a as [[x d] g1]. intros (C1 & C2 & _) (A & B). split; auto. Qed.

Variable tr : ops -> P -> cstate -> cstate -> Prop.
Hypothesis GT : good_trans tr.

Lemma entry_eq (st : cstate) (o : ops) e1 e2 :
  of_state st e1 -> of_state st e2 -> entry_ok o e1 -> entry_ok o e2 -> e1 = e2.
Proof.
  destruct st as [[x d] g], e1 as [[x1 d1] t1], e2 as [[x2 d2] t2]. simpl.
  intros (-> & ->) (-> & ->) A B. congruence.
Qed.

Lemma entry_ok_mono (o1 o2 : ops) e : completes o1 o2 -> entry_ok o1 e -> entry_ok o2 e.
Proof. destruct e as [[x d] t]. intros (_ & _ & _ & _ & C & _). apply C. Qed.

(** every entry is a true description of its sample *)
Lemma saved_true o prm delta s l (trj : list cstate) j e :
  path (tr o delta) s trj -> nth_error l j = Some e -> saved_at o prm trj j e ->
  o_forward o (e_X e) = Ok (e_D e) /\ o_logpi o (e_X e) (e_D e) = Ok (snd e).
Proof.
  intros HP Hj (Hok & st & Hst & Hof).
  destruct st as [[x d] g], e as [[x1 d1] t]. destruct Hof as (-> & ->). simpl.
  split; [|exact Hok].
  apply (path_inv _ (fun s : cstate => let '(x, d, g) := s in o_forward o x = Ok d) _ _
           ltac:(intros a [[x0 d0] g0] HH; exact (gt_fwd _ GT _ _ _ _ _ _ HH)) HP _ _ Hst).
Qed.

Lemma describes_agree (o1 o2 : ops) s1 s2 j k x d t :
  completes o1 o2 ->
  row_describes o1 s1 j x d t -> row_describes o2 s2 k x d t -> rows_agree s1 j s2 k.
Proof.
  intros C. destruct t as [[lp l2] pr].
  assert (CK : forall v, o_rowK o1 v = o_rowK o2 v) by (intros; apply C).
  assert (CV : forall v r, o_rowV o1 v = Ok r -> o_rowV o2 v = Ok r) by (intros; apply C; assumption).
  assert (CD : forall v r, o_rowD o1 v = Ok r -> o_rowD o2 v = Ok r) by (intros; apply C; assumption).
  intros (A1 & A2 & A3 & A4 & A5) (B1 & B2 & B3 & B4 & B5).
  assert (G1 : forall B (a b : option (list B)) (u v : res B), (forall r, u = Ok r -> v = Ok r) ->
            row_is a j u -> row_is b k v -> same_row a j b k).
  { clear. intros B [a|] [b|] u v Huv; simpl; auto.
    intros (r & E1 & E2) (r' & E3 & E4). apply Huv in E2. congruence. }
  repeat split.
  - eapply G1; [|exact A1|exact B1]. rewrite CK. auto.
  - eapply G1; [|exact A2|exact B2]. rewrite CK. auto.
  - eapply G1; [|exact A3|exact B3]. rewrite CK. auto.
  - eapply G1; [|exact A4|exact B4]. auto.
  - eapply G1; [|exact A5|exact B5]. auto.
Qed.

(** General comparison: two recordings of chains with the same start, step
    size and random stream, the second with operators that complete the first. *)
Lemma compare (o1 o2 : ops) prm1 prm2 delta s tr1 tr2 (l1 l2 : list entry) w1 w1' w2 w2' j k :
  completes o1 o2 ->
  path (tr o1 delta) s tr1 -> path (tr o2 delta) s tr2 ->
  records_torn o1 w1 w1' l1 -> records_torn o2 w2 w2' l2 ->
  (forall j e, nth_error l1 j = Some e -> saved_at o1 prm1 tr1 j e) ->
  (forall j e, nth_error l2 j = Some e -> saved_at o2 prm2 tr2 j e) ->
  (j < List.length l1)%nat -> (k < List.length l2)%nat ->
  save_iter (p_nburn prm1) (p_ngap prm1) j = save_iter (p_nburn prm2) (p_ngap prm2) k ->
  rows_agree w1' j w2' k.
Proof.
  intros C P1 P2 R1 R2 S1 S2 Hj Hk E.
  destruct (nth_error l1 j) as [[[x d] t]|] eqn:E1; [|apply nth_error_None in E1; lia].
  destruct (nth_error l2 k) as [[[x' d'] t']|] eqn:E2; [|apply nth_error_None in E2; lia].
  destruct (S1 _ _ E1) as (O1 & st1 & N1 & F1).
  destruct (S2 _ _ E2) as (O2 & st2 & N2 & F2).
  rewrite E in N1.
  assert (st1 = st2).
  { refine (path_det _ _ _ _ _ _ _ _ _ P1 P2 N1 N2).
    intros a b c Ha Hb. eapply (gt_det _ GT); [eapply gt_mono; eauto|exact Hb]. }
  subst st2.
  assert ((x, d, t) = (x', d', t')) as Q.
  { eapply (entry_eq st1 o2); eauto. eapply entry_ok_mono; eauto. }
  inv Q.
  eapply describes_agree; eauto; eapply records_torn_row; eauto.
Qed.

Lemma completes_refl (o : ops) : completes o o.
Proof. repeat split; auto. Qed.

Section Two.
Variable ev1 ev2 : params -> inst -> Z -> list entry -> list (event K) -> Prop.

(** two finished runs, arbitrary schedules (C08) *)
Lemma complete_rows_agree (o : ops) prm1 prm2 start w1 w1' w2 w2' n1 n2 j k :
  complete_run o prm1 (tr o) (ev1 prm1) start w1 w1' n1 -> complete_run o prm2 (tr o) (ev2 prm2) start w2 w2' n2 ->
  w_rng w1 = w_rng w2 -> i_delta (w_inst w1) = i_delta (w_inst w2) ->
  (j < n1)%nat -> (k < n2)%nat ->
  save_iter (p_nburn prm1) (p_ngap prm1) j = save_iter (p_nburn prm2) (p_ngap prm2) k ->
  rows_agree (w_inst w1') j (w_inst w2') k.
Proof.
  intros (s & t1 & l1 & A1 & A2 & A3 & A4 & A5 & A6 & A7 & _) (s' & t2 & l2 & B1 & B2 & B3 & B4 & B5 & B6 & B7 & _) Hg Hd Hj Hk E.
  rewrite Hg in A1. assert (s = s') by (eapply starts_det; eauto). subst s'.
  rewrite Hd in A2.
  apply (compare o o prm1 prm2 _ s t1 t2 l1 l2 (w_inst w1) _ (w_inst w2) _ j k (completes_refl o) A2 B2); auto using records_torn_of; lia.
Qed.

(** a run on used arrays = a run on fresh ones (C11) *)
Lemma complete_same_arrays (o : ops) prm start w1 w1' w2 w2' n :
  sized (w_inst w1) n -> sized (w_inst w2) n ->
  complete_run o prm (tr o) (ev1 prm) start w1 w1' n -> complete_run o prm (tr o) (ev2 prm) start w2 w2' n ->
  w_rng w1 = w_rng w2 -> i_delta (w_inst w1) = i_delta (w_inst w2) ->
  same_tracking (w_inst w1) (w_inst w2) ->
  same_arrays (w_inst w1') (w_inst w2') /\ w_rng w1' = w_rng w2'.
Proof.
  intros Z1 Z2 (s & t1 & l1 & A1 & A2 & A3 & A4 & A5 & A6 & A7 & _) (s' & t2 & l2 & B1 & B2 & B3 & B4 & B5 & B6 & B7 & _) Hg Hd HT.
  rewrite Hg in A1. assert (s = s') by (eapply starts_det; eauto). subst s'.
  rewrite Hd in A2.
  assert (t1 = t2).
  { refine (path_det_eq _ _ _ _ _ _ A2 B2 _); [|congruence]. intros a b c. apply (gt_det _ GT). }
  subst t2.
  assert (l1 = l2).
  { apply nth_error_ext. intros j.
    destruct (nth_error l1 j) as [e|] eqn:E1.
    - destruct (nth_error l2 j) as [e'|] eqn:E2.
      + f_equal. destruct (A7 _ _ E1) as (O1 & st1 & N1 & F1). destruct (B7 _ _ E2) as (O2 & st2 & N2 & F2).
        rewrite N1 in N2. inv N2. eapply entry_eq; eauto.
      + apply nth_error_None in E2. assert (j < List.length l1)%nat by (apply nth_error_Some; congruence). lia.
    - destruct (nth_error l2 j) as [e'|] eqn:E2; [|reflexivity].
      apply nth_error_None in E1. assert (j < List.length l2)%nat by (apply nth_error_Some; congruence). lia. }
  subst l2. split; [|congruence].
  destruct A6 as (a1 & a2 & a3 & a4 & a5). destruct B6 as (b1 & b2 & b3 & b4 & b5).
  destruct HT as (h1 & h2 & h3 & h4 & h5).
  destruct Z1 as (z1 & z2 & z3 & z4 & z5). destruct Z2 as (y1 & y2 & y3 & y4 & y5).
  assert (GEN : forall A B (cast : A -> res B) (f : entry -> A) o1 o2 r1 r2,
     rec_arr cast (map f l1) o1 r1 -> rec_arr cast (map f l1) o2 r2 -> len_arr n o1 -> len_arr n o2 ->
     same_presence o1 o2 -> r1 = r2).
  { clear -A5. intros A B cast f [x1|] [x2|] [r1|] [r2|]; simpl; try tauto.
    intros (q1 & F1 & _ & ->) (q2 & F2 & _ & ->) L1 L2 _.
    rewrite map_length, A5. rewrite <- L1 at 1. rewrite skipn_all. rewrite <- L2, skipn_all, !app_nil_r. f_equal.
    clear -F1 F2. revert q2 F2. induction F1; intros; inv F2; [reflexivity|].
    f_equal; [congruence|]. apply IHF1; assumption. }
  repeat split; eapply GEN; eauto.
Qed.

End Two.

(** an interrupted run against any longer recording (C09) *)
Lemma torn_row_untouched {A B} (cast : A -> res B) l old arr j :
  rec_or_torn cast l old arr -> (List.length l < j)%nat -> same_row arr j old j.
Proof.
  intros [H|H] Hj; revert H; destruct old as [a0|], arr as [a|]; simpl; try tauto.
  - intros (rows & HF & Hle & ->). pose proof (Forall2_length _ _ _ HF) as HL.
    rewrite nth_error_app2 by lia.
    rewrite <- (firstn_skipn (List.length l) a0) at 2.
    rewrite (nth_error_app2 (firstn _ _)); rewrite firstn_length; [|lia].
    f_equal. lia.
  - intros (rows & v & HF & Hle & ->). pose proof (Forall2_length _ _ _ HF) as HL.
    rewrite nth_error_app2 by lia.
    rewrite <- (firstn_skipn (List.length l + 1) a0) at 2.
    rewrite (nth_error_app2 (firstn _ _)); rewrite firstn_length; [|lia].
    replace (j - List.length rows)%nat with (S (j - (List.length l + 1)))%nat by lia. simpl.
    f_equal. lia.
Qed.

Lemma rec_row_untouched {A B} (cast : A -> res B) l old arr j :
  rec_arr cast l old arr -> (List.length l <= j)%nat -> same_row arr j old j.
Proof.
  intros H Hj; revert H; destruct old as [a0|], arr as [a|]; simpl; try tauto.
  intros (rows & HF & Hle & ->). pose proof (Forall2_length _ _ _ HF) as HL.
  rewrite nth_error_app2 by lia.
  rewrite <- (firstn_skipn (List.length l) a0) at 2.
  rewrite (nth_error_app2 (firstn _ _)); rewrite firstn_length; [|lia].
  f_equal. lia.
Qed.

Lemma torn_untouched (o : ops) s0 s l j :
  records_torn o s0 s l -> (List.length l < j)%nat -> rows_agree s j s0 j.
Proof.
  intros (A & B & C & E & F) Hj.
  repeat split; eapply torn_row_untouched; eauto; rewrite map_length; exact Hj.
Qed.

Lemma rec_untouched (o : ops) s0 s l j :
  records o s0 s l -> (List.length l <= j)%nat -> rows_agree s j s0 j.
Proof.
  intros (A & B & C & E & F) Hj.
  repeat split; eapply rec_row_untouched; eauto; rewrite map_length; exact Hj.
Qed.

Lemma iter_le_len prm (trj : list cstate) (o : ops) (l : list entry) k j :
  List.length trj = k -> (k <= Z.to_nat (save_iter (p_nburn prm) (p_ngap prm) (List.length l)))%nat ->
  save_iter (p_nburn prm) (p_ngap prm) j < Z.of_nat k -> (j < List.length l)%nat.
Proof.
  intros <- Hle Hlt.
  pose proof (save_iter_nonneg (p_nburn prm) (p_ngap prm) (List.length l)).
  destruct (lt_eq_lt_dec j (List.length l)) as [[C|C]|C]; auto.
  - subst j. lia.
  - apply (save_iter_lt (p_nburn prm) (p_ngap prm)) in C. lia.
Qed.

Lemma partial_vs_complete (o1 o2 : ops) (recs : inst -> inst -> list entry -> Prop) prm ev start w w1' w2' k n :
  completes o1 o2 ->
  (forall s0 s l, recs s0 s l -> records_torn o1 s0 s l) ->
  partial_run o1 prm (tr o1) recs start w w1' k n ->
  complete_run o2 prm (tr o2) ev start w w2' n ->
  forall j, save_iter (p_nburn prm) (p_ngap prm) j < Z.of_nat k ->
    (j < n)%nat /\ rows_agree (w_inst w1') j (w_inst w2') j.
Proof.
  intros C HR (s & t1 & l1 & A1 & A2 & A3 & A4 & A5 & A6 & A7) (s' & t2 & l2 & B1 & B2 & B3 & B4 & B5 & B6 & B7 & _) j Hj.
  assert (s = s').
  { eapply starts_det; [eapply starts_mono; eauto|exact B1]. } subst s'.
  pose proof (iter_le_len prm t1 o1 l1 k j A3 A5 Hj) as HL.
  split; [lia|].
  apply (compare o1 o2 prm prm _ s t1 t2 l1 l2 (w_inst w) _ (w_inst w) _ j j C A2 B2); auto using records_torn_of; lia.
Qed.


Lemma partial_len_le prm (o : ops) (trj : list cstate) (l : list entry) k j :
  List.length trj = k -> (k <= Z.to_nat (save_iter (p_nburn prm) (p_ngap prm) (List.length l)))%nat ->
  (forall j e, nth_error l j = Some e -> saved_at o prm trj j e) ->
  Z.of_nat k <= save_iter (p_nburn prm) (p_ngap prm) j -> (List.length l <= j)%nat.
Proof.
  intros A3 A5 A7 Hj.
  destruct (le_lt_dec (List.length l) j) as [C|C]; [exact C|exfalso].
  destruct (nth_error l j) as [e|] eqn:E; [|apply nth_error_None in E; lia].
  destruct (A7 _ _ E) as (_ & st & N & _).
  assert (Z.to_nat (save_iter (p_nburn prm) (p_ngap prm) j) < List.length trj)%nat by (apply nth_error_Some; congruence).
  lia.
Qed.

Lemma stop_untouched (o1 : ops) prm start w w1' k n :
  partial_run o1 prm (tr o1) (records o1) start w w1' k n ->
  forall j, Z.of_nat k <= save_iter (p_nburn prm) (p_ngap prm) j -> rows_agree (w_inst w1') j (w_inst w) j.
Proof.
  intros (s & t1 & l1 & A1 & A2 & A3 & A4 & A5 & A6 & A7) j Hj.
  eapply rec_untouched; [exact A6|]. eapply partial_len_le; eauto.
Qed.

Lemma crash_untouched (o1 : ops) prm start w w1' k n :
  partial_run o1 prm (tr o1) (crash_rec o1 prm (Z.of_nat k)) start w w1' k n ->
  forall j, Z.of_nat k < save_iter (p_nburn prm) (p_ngap prm) j -> rows_agree (w_inst w1') j (w_inst w) j.
Proof.
  intros (s & t1 & l1 & A1 & A2 & A3 & A4 & A5 & A6 & A7) j Hj.
  assert (HL : (List.length l1 <= j)%nat) by (eapply partial_len_le; eauto; lia).
  unfold crash_rec in A6. destruct (saves prm (Z.of_nat k)) eqn:ES; [|eapply rec_untouched; eauto].
  eapply torn_untouched; [exact A6|].
  destruct (Nat.eq_dec (List.length l1) j) as [<-|]; [exfalso|lia].
  rewrite saves_iff in ES by lia. destruct ES as (j' & Ej').
  assert (List.length l1 <= j')%nat by (eapply partial_len_le; eauto; lia).
  destruct (Nat.eq_dec (List.length l1) j') as [E'|]; [rewrite <- E' in Ej'; lia|].
  pose proof (save_iter_lt (p_nburn prm) (p_ngap prm) (List.length l1) j'). lia.
Qed.

Lemma total_no_raise (o : ops) e : total_ops o -> ~ op_raises o e.
Proof.
  intros (T1 & T2 & T3 & T4 & T5 & T6 & T7 & T8 & T9 & T10) H. destruct H as
    [s g g' H|x H|d H|x H|x d H|p x y z g g' H|p x g g' H|p x y z t H|x H|d H].
  - destruct (T1 s g) as (? & ? & ?). congruence.
  - destruct (T2 x). congruence.
  - destruct (T3 d). congruence.
  - destruct (T4 x). congruence.
  - destruct (T5 x d). congruence.
  - destruct (T6 p x y z g) as (? & ? & ?). congruence.
  - destruct (T7 p x g) as (? & ? & ?). congruence.
  - destruct (T8 p x y z t). congruence.
  - destruct (T9 x). congruence.
  - destruct (T10 d). congruence.
Qed.

Lemma run_no_raise_cases (o : ops) prm ev reads fuel start w w' out n :
  total_ops o -> run_spec o prm (tr o) ev reads fuel start w w' out n ->
  (total_iters (p_nburn prm) (p_ngap prm) n <= fuel)%nat ->
  match out with
  | Ret _ => forall i, 0 <= i < Z.of_nat (total_iters (p_nburn prm) (p_ngap prm) n) -> reads i -> ~ untracked (w_inst w)
  | Exn e => e = AttributeError /\ untracked (w_inst w) /\
             exists i, 0 <= i < Z.of_nat (total_iters (p_nburn prm) (p_ngap prm) n) /\ reads i
  | NoFuel => False
  end.
Proof.
  intros HT (_ & HO) Hf. destruct out as [[]|e|].
  - apply HO.
  - destruct HO as [(_ & HO & _)|[(_ & x & g & A & B)|(k & Hk & HP & HO)]].
    + destruct (total_no_raise _ _ HT HO).
    + destruct HT as (_ & T2 & _). destruct (T2 x). congruence.
    + destruct HO as [HO|(-> & HO & HU)]; [destruct (total_no_raise _ _ HT HO)|].
      split; [reflexivity|]. split; [exact HU|]. exists (Z.of_nat k). split; [|exact HO].
      destruct HP as (s & t1 & l1 & A1 & A2 & A3 & A4 & A5 & A6 & A7).
      destruct n as [|m]; [lia|]. simpl total_iters.
      pose proof (save_iter_nonneg (p_nburn prm) (p_ngap prm) m).
      pose proof (save_iter_nonneg (p_nburn prm) (p_ngap prm) (List.length l1)).
      destruct (Nat.eq_dec (List.length l1) m) as [E|].
      * rewrite E in *. lia.
      * pose proof (save_iter_lt (p_nburn prm) (p_ngap prm) (List.length l1) m ltac:(lia)). lia.
  - destruct HO as ((s & t1 & l1 & A1 & A2 & A3 & A4 & A5 & A6 & A7) & _).
    destruct n as [|m]; [lia|]. simpl total_iters in Hf.
    pose proof (save_iter_nonneg (p_nburn prm) (p_ngap prm) m).
    pose proof (save_iter_nonneg (p_nburn prm) (p_ngap prm) (List.length l1)).
    destruct (Nat.eq_dec (List.length l1) m) as [E|].
    + rewrite E in *. lia.
    + pose proof (save_iter_lt (p_nburn prm) (p_ngap prm) (List.length l1) m ltac:(lia)). lia.
Qed.

End Thms.

(** ** a new sampler *)
Section New.
Context {V D K P G I : Type}.
Variable o : ops V D K P G I.

Lemma opt_array_inv {A} b n (z : A) r :
  opt_array b n z = Ok r -> r = (if b then Some (repeat z (Z.to_nat n)) else None) /\ (b = true -> 0 <= n).
Proof.
  unfold opt_array, np_zeros. destruct b; simpl.
  - destruct (n <? 0) eqn:E; simpl; intros H; inv H. apply Z.ltb_ge in E. auto.
  - intros H; inv H. split; [reflexivity|discriminate].
Qed.

Lemma new_sampler_inv prm delta s :
  new_sampler o prm delta = Ok s ->
  s = mkInst
    (if str_in "logposterior" (p_track prm) then Some (repeat (o_zeroK o) (Z.to_nat (p_nsamples prm))) else None)
    (if str_in "L2" (p_track prm) then Some (repeat (o_zeroK o) (Z.to_nat (p_nsamples prm))) else None)
    (if str_in "prior" (p_track prm) then Some (repeat (o_zeroK o) (Z.to_nat (p_nsamples prm))) else None)
    (if str_in "predictions" (p_track prm) then Some (repeat (o_zeroD o) (Z.to_nat (p_nsamples prm))) else None)
    (if str_in "chain" (p_track prm) then Some (repeat (o_zeroV o) (Z.to_nat (p_nsamples prm))) else None)
    None None delta [].
Proof.
  unfold new_sampler. intros H.
  destruct (opt_array (str_in "logposterior" (p_track prm)) _ _) as [a|] eqn:E1; [|discriminate]. simpl in H.
  destruct (opt_array (str_in "predictions" (p_track prm)) _ _) as [b|] eqn:E2; [|discriminate]. simpl in H.
  destruct (opt_array (str_in "chain" (p_track prm)) _ _) as [c|] eqn:E3; [|discriminate]. simpl in H.
  destruct (opt_array (str_in "L2" (p_track prm)) _ _) as [d|] eqn:E4; [|discriminate]. simpl in H.
  destruct (opt_array (str_in "prior" (p_track prm)) _ _) as [e|] eqn:E5; [|discriminate]. simpl in H.
  inv H.
  apply opt_array_inv in E1, E2, E3, E4, E5.
  destruct E1 as (-> & _), E2 as (-> & _), E3 as (-> & _), E4 as (-> & _), E5 as (-> & _). reflexivity.
Qed.

Lemma new_sampler_ok prm delta :
  0 <= p_nsamples prm -> exists s, new_sampler o prm delta = Ok s.
Proof.
  intros H. unfold new_sampler, opt_array, np_zeros.
  destruct (p_nsamples prm <? 0) eqn:E; [apply Z.ltb_lt in E; lia|].
  repeat match goal with |- context [str_in ?x ?l] => destruct (str_in x l) end; simpl; eauto.
Qed.

Lemma new_sampler_sized prm delta s :
  new_sampler o prm delta = Ok s -> sized s (Z.to_nat (p_nsamples prm)).
Proof.
  intros H. rewrite (new_sampler_inv _ _ _ H). repeat split; simpl;
  match goal with |- context [str_in ?x ?l] => destruct (str_in x l) end; simpl; auto; apply repeat_length.
Qed.
End New.
