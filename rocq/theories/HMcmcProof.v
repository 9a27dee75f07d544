(** The heap versions of the numerical parts compute the value-level ones. *)
From Coq Require Import List ZArith Lia Bool Reals Lra String.
From Coquelicot Require Import Coquelicot.
From Verif Require Import PyBase PyBaseFacts CVec Thresh Prior Forward Sampler Mcmc Arrays ArrSpec ArrProof HSampler HSampSpec HSampProof HMcmc HMcmcSpec.
Import ListNotations.
Notation length := List.length.
Open Scope R_scope.

Lemma Ok_inj : forall {A} (a b : A), Ok a = Ok b -> a = b.
Proof. intros A a b E. injection E. auto. Qed.

(** ** steps of a computation, keeping track of the values of all arrays in use *)
Lemma gives_raise : forall h old e h1, gives h old (Raise e) (Raise e) h1.
Proof. reflexivity. Qed.
Definition returns {A} (v : res A) (o : res A) (h : aheap) : Prop := o = v.

Section Steps.
Context {A B : Type}.
Variable Qv : res B -> res A -> aheap -> Prop.
Hypothesis QR : forall e h, Qv (Raise e) (Raise e) h.

Lemma step_bin : forall f a b x y (k : aref -> H A) kv h L, holds h L -> In (a, x) L -> In (b, y) L ->
  (forall r z h1, f x y = Ok z -> preserves h h1 -> (length h <= r_cell r)%nat -> holds h1 ((r, z) :: L) -> hspec (k r) h1 (Qv (kv z))) ->
  hspec (hbind (h_bin f a b) k) h (Qv (rbind (f x y) kv)).
Proof.
  intros f a b x y k kv h L Hh Ha Hb K. destruct (Hh _ _ Ha) as [Aa Ra]. destruct (Hh _ _ Hb) as [Ab Rb].
  eapply hspec_let; [apply h_bin_spec| |].
  - rewrite Ra, Rb. intros e h1 -> _. apply QR.
  - rewrite Ra, Rb. intros z r h1 E Hp Ar Rr Hc. rewrite E. cbn [rbind]. apply K; auto.
    + destruct Hc as [Hc|[]]. exact Hc.
    + apply holds_cons; auto. eapply holds_mono; eauto.
Qed.
Lemma step_un : forall f a x (k : aref -> H A) v h L, holds h L -> In (a, x) L ->
  (forall r h1, preserves h h1 -> (length h <= r_cell r)%nat -> holds h1 ((r, f x) :: L) -> hspec (k r) h1 (Qv v)) ->
  hspec (hbind (h_un f a) k) h (Qv v).
Proof.
  intros f a x k v h L Hh Ha K. destruct (Hh _ _ Ha) as [Aa Ra].
  eapply hspec_let; [apply h_un_spec|discriminate|]. intros z r h1 E Hp Ar Rr Hc. apply K; auto.
  - destruct Hc as [Hc|[]]. exact Hc.
  - apply Ok_inj in E. apply holds_cons; auto; [rewrite Rr, <- E, Ra; reflexivity|]. eapply holds_mono; eauto.
Qed.
Lemma step_alloc : forall x (k : aref -> H A) v h L, holds h L ->
  (forall r h1, preserves h h1 -> (length h <= r_cell r)%nat -> holds h1 ((r, x) :: L) -> hspec (k r) h1 (Qv v)) ->
  hspec (hbind (alloc x) k) h (Qv v).
Proof.
  intros x k v h L Hh K. eapply hspec_let; [apply alloc_spec|discriminate|]. intros z r h1 E Hp Ar Rr Hc. apply Ok_inj in E. subst z. apply K; auto.
  - destruct Hc as [Hc|[]]. exact Hc.
  - apply holds_cons; auto. eapply holds_mono; eauto.
Qed.
Lemma step_values : forall a x (k : vec -> H A) v h L, holds h L -> In (a, x) L -> hspec (k x) h (Qv v) -> hspec (hbind (values a) k) h (Qv v).
Proof. intros a x k v h L Hh Ha K. apply hspec_values. destruct (Hh _ _ Ha) as [_ ->]. exact K. Qed.
Lemma step_lift : forall {D} (r : res D) (k : D -> H A) kv h, (forall d, r = Ok d -> hspec (k d) h (Qv (kv d))) -> hspec (hbind (hlift r) k) h (Qv (rbind r kv)).
Proof. intros D r k kv h K. apply hspec_lift; [intros e ->; apply QR|]. intros d Ed. rewrite Ed. cbn [rbind]. apply K. exact Ed. Qed.
Lemma step_op : forall (P : aheap -> Prop) F f a x (k : aref -> H A) kv h L, implements P F f -> P h -> holds h L -> In (a, x) L ->
  (forall r z h1, f x = Ok z -> preserves h h1 -> (length h <= r_cell r)%nat \/ r_cell r = r_cell a -> holds h1 ((r, z) :: L) -> hspec (k r) h1 (Qv (kv z))) ->
  hspec (hbind (F a) k) h (Qv (rbind (f x) kv)).
Proof.
  intros P F f a x k kv h L HF Ph Hh Ha K. destruct (Hh _ _ Ha) as [Aa Ra]. pose proof (HF h a Ph Aa) as S. rewrite Ra in S.
  eapply hspec_let; [exact S| |].
  - intros e h1 -> _. apply QR.
  - intros z r h1 E Hp Ar Rr Hc. rewrite E. cbn [rbind]. apply K; auto.
    + destruct Hc as [Hc|[Hc|[]]]; auto.
    + apply holds_cons; auto. eapply holds_mono; eauto.
Qed.
End Steps.
Lemma last_bin : forall f a b x y h h0 old L, preserves h0 h -> holds h L -> In (a, x) L -> In (b, y) L -> hspec (h_bin f a b) h (gives h0 old (f x y)).
Proof.
  intros f a b x y h h0 old L Hp Hh Ha Hb. destruct (Hh _ _ Ha) as [Aa Ra]. destruct (Hh _ _ Hb) as [Ab Rb].
  eapply hspec_conseq; [apply h_bin_spec|]. rewrite Ra, Rb. intros o h' _ Hg. eapply gives_shift; [exact Hp|exact Hg|]. intros c [].
Qed.
Lemma last_op : forall (P : aheap -> Prop) F f a x h h0 old L, implements P F f -> P h -> preserves h0 h -> holds h L -> In (a, x) L ->
  (length h0 <= r_cell a)%nat \/ In (r_cell a) old -> hspec (F a) h (gives h0 old (f x)).
Proof.
  intros P F f a x h h0 old L HF Ph Hp Hh Ha Hc. destruct (Hh _ _ Ha) as [Aa Ra]. pose proof (HF h a Ph Aa) as S. rewrite Ra in S.
  eapply hspec_conseq; [exact S|]. intros o h' _ Hg. eapply gives_shift; [exact Hp|exact Hg|]. intros c [<-|[]]. exact Hc.
Qed.
Lemma holds_one : forall h r, allocated h r -> holds h [(r, rd h r)].
Proof. intros h r Hr. apply holds_cons; auto. intros ? ? []. Qed.
Ltac inl := cbn [In]; tauto.

Section Num.
Context {G : Type}.
Variable R0 : rng G.
Variable hf : hforward.
Variable f : forward_op.
Variable hp : hprior_obj.
Variable pr : prior_obj.
Variable q : numparams.
Variable P : aheap -> Prop.
Hypothesis Pc : forall h h', P h -> preserves h h' -> P h'.
Hypothesis FA : forward_on_arrays P hf f.
Hypothesis PA : prior_on_arrays P hp pr.

Lemma attr_rel : forall {A B} (Rl : A -> B -> Prop) a b, opt_rel Rl a b ->
  (exists x y, a = Some x /\ b = Some y /\ Rl x y) \/ (a = None /\ b = None).
Proof. intros A B Rl [x|] [y|] Hr; try contradiction; [left; eauto|right; auto]. Qed.

Lemma forward_ok : implements P (h_fo_forward hf) (fo_forward f).
Proof.
  intros h X Ph HX. unfold h_fo_forward, fo_forward. rewrite (fa_setting _ _ _ FA). pose proof (holds_one h X HX) as Hh.
  destruct (attr_rel _ _ _ (fa_meas _ _ _ FA)) as [[m [mv [-> [-> [M1 M2]]]]]|[-> ->]].
  2:{ destruct (String.eqb _ _); (apply hspec_lift; [intros e E; apply (f_equal (fun r => match r with Raise e => e | Ok _ => ValueError end)) in E; cbn in E; subst e; reflexivity|discriminate]). }
  destruct (String.eqb (fo_setting f) "analysis").
  - apply hspec_lift; [discriminate|]. intros m0 E. apply Ok_inj in E. subst m0. cbn [attr rbind]. apply M1; auto.
  - apply hspec_lift; [discriminate|]. intros m0 E. apply Ok_inj in E. subst m0. cbn [attr rbind].
    destruct (attr_rel _ _ _ (fa_transform _ _ _ FA)) as [[t [tv [-> [-> [T1 T2]]]]]|[-> ->]].
    2:{ apply hspec_lift; [intros e E; apply (f_equal (fun r => match r with Raise e => e | Ok _ => ValueError end)) in E; cbn in E; subst e; reflexivity|discriminate]. }
    apply hspec_lift; [discriminate|]. intros m0 E. apply Ok_inj in E. subst m0. cbn [attr rbind].
    eapply step_op; [reflexivity|exact T1|exact Ph|exact Hh|inl|]. intros r z h1 E Hp Hc Hh1. eapply last_op; [exact M1|eapply Pc; eauto|exact Hp|exact Hh1|inl|].
    destruct Hc as [Hc|Hc]; [auto|right; left; congruence].
Qed.
Lemma gradg_analysis_ok : implements P (h_gradg_analysis hf) (gradg_analysis f).
Proof.
  intros h X Ph HX. unfold h_gradg_analysis, gradg_analysis. rewrite (fa_invcov _ _ _ FA). destruct (fa_data _ _ _ FA h Ph) as [Ad Rd].
  assert (Hh : holds h [(hf_data hf, d_val (fo_data f)); (X, rd h X)]) by (apply holds_cons; auto; apply holds_one; auto).
  destruct (attr_rel _ _ _ (fa_meas _ _ _ FA)) as [[m [mv [-> [-> [M1 M2]]]]]|[-> ->]].
  2:{ apply hspec_lift; [intros e E; apply (f_equal (fun r => match r with Raise e => e | Ok _ => ValueError end)) in E; cbn in E; subst e; reflexivity|discriminate]. }
  apply hspec_lift; [discriminate|]. intros m0 E. apply Ok_inj in E. subst m0. cbn [attr rbind].
  eapply step_bin; [reflexivity|exact Hh|inl|inl|]. intros r z h1 _ Hp1 _ H1. eapply step_values; [exact H1|inl|].
  eapply step_lift; [reflexivity|]. intros w _. eapply step_alloc; [exact H1|]. intros r2 h2 Hp2 Hc2 H2.
  pose proof (preserves_length _ _ Hp1). assert (Hp : preserves h h2) by eauto using preserves_trans.
  eapply last_op; [exact M2|eapply Pc; eauto|exact Hp|exact H2|inl|left; lia].
Qed.
Lemma gradg_ok : implements P (h_fo_gradg hf) (fo_gradg f).
Proof.
  intros h X Ph HX. unfold h_fo_gradg, fo_gradg. rewrite (fa_setting _ _ _ FA). pose proof (holds_one h X HX) as Hh. destruct (String.eqb (fo_setting f) "analysis").
  - apply gradg_analysis_ok; auto.
  - destruct (attr_rel _ _ _ (fa_transform _ _ _ FA)) as [[t [tv [-> [-> [T1 T2]]]]]|[-> ->]].
    2:{ apply hspec_lift; [intros e E; apply (f_equal (fun r => match r with Raise e => e | Ok _ => ValueError end)) in E; cbn in E; subst e; reflexivity|discriminate]. }
    apply hspec_lift; [discriminate|]. intros m0 E. apply Ok_inj in E. subst m0. cbn [attr rbind].
    eapply step_op; [reflexivity|exact gradg_analysis_ok|exact Ph|exact Hh|inl|]. intros r z h1 E Hp Hc Hh1. eapply last_op; [exact T2|eapply Pc; eauto|exact Hp|exact Hh1|inl|].
    destruct Hc as [Hc|Hc]; [auto|right; left; congruence].
Qed.
Lemma logpi_ok : forall h X d, P h -> allocated h X -> allocated h d ->
  hspec (h_logpi hf hp q X d) h (returns (logpi f pr q (rd h X) (rd h d))).
Proof.
  intros h X d Ph HX Hd. unfold h_logpi, logpi. rewrite (fa_invcov _ _ _ FA). destruct (fa_data _ _ _ FA h Ph) as [Ad Rd].
  assert (Hh : holds h [(hf_data hf, d_val (fo_data f)); (d, rd h d); (X, rd h X)]) by (apply holds_cons; auto; apply holds_cons; auto; apply holds_one; auto).
  eapply step_bin; [reflexivity|exact Hh|inl|inl|]. intros r z h1 _ Hp1 _ H1. eapply step_values; [exact H1|inl|].
  eapply step_lift; [reflexivity|]. intros w _. eapply step_alloc; [exact H1|]. intros r2 h2 Hp2 Hc2 H2. eapply step_values; [exact H2|inl|]. eapply step_values; [exact H2|inl|].
  eapply step_lift; [reflexivity|]. intros l2 _. assert (Hp : preserves h h2) by eauto using preserves_trans.
  destruct (H2 X (rd h X) ltac:(inl)) as [A2 B2]. apply hspec_bind. eapply hspec_conseq; [apply (pa_prior _ _ _ PA); [eapply Pc; eauto|exact A2]|].
  cbv beta. rewrite B2. intros o h' _ ->. destruct (pr_prior pr (rd h X)); [|reflexivity]. apply hspec_ret. reflexivity.
Qed.
Lemma gradlogpi_ok : forall h X, P h -> allocated h X -> hspec (h_gradlogpi hf hp q X) h (gives h [] (gradlogpi f pr q (rd h X) None)).
Proof.
  intros h X Ph HX. unfold h_gradlogpi, gradlogpi. pose proof (holds_one h X HX) as Hh.
  eapply step_op; [reflexivity|exact (pa_proxf _ _ _ PA)|exact Ph|exact Hh|inl|]. intros r1 z1 h1 _ Hp1 _ H1.
  eapply step_bin; [reflexivity|exact H1|inl|inl|]. intros r2 z2 h2 _ Hp2 _ H2.
  eapply step_un; [exact H2|inl|]. intros r3 h3 Hp3 _ H3. assert (Ph3 : P h3) by eauto using preserves_trans.
  eapply step_op; [reflexivity|exact forward_ok|exact Ph3|exact H3|inl|]. intros r4 z4 h4 _ Hp4 _ H4.
  eapply step_op; [reflexivity|exact gradg_ok|eapply Pc; eauto|exact H4|inl|]. intros r5 z5 h5 _ Hp5 _ H5.
  eapply step_un; [exact H5|inl|]. intros r6 h6 Hp6 _ H6.
  eapply last_bin; [eauto 10 using preserves_trans|exact H6|inl|inl].
Qed.
Lemma step_ok : forall h p X px gr g, P h -> allocated h X -> allocated h px -> allocated h gr ->
  snd (h_chain_step R0 hf q p X px gr g) = snd (chain_step R0 f q p (rd h X) (rd h px) (rd h gr) g) /\
  hspec (fst (h_chain_step R0 hf q p X px gr g)) h (gives h [] (fst (chain_step R0 f q p (rd h X) (rd h px) (rd h gr) g))).
Proof.
  intros h p X px gr g Ph HX Hx Hg. unfold h_chain_step, chain_step. rewrite (fa_nparams _ _ _ FA).
  destruct (fo_nparams f) as [n|]; [|split; [reflexivity|split; [apply preserves_refl|reflexivity]]].
  destruct (draw (g_randn R0) (n_complex q) n g) as [w g']. cbn [fst snd]. split; [reflexivity|].
  assert (Hh : holds h [(X, rd h X); (px, rd h px); (gr, rd h gr)]) by (apply holds_cons; auto; apply holds_cons; auto; apply holds_one; auto).
  eapply step_alloc; [exact Hh|]. intros r1 h1 Hp1 _ H1. destruct (Req_EM_T (n_lmda q) 0); [split; [apply preserves_refl|reflexivity]|].
  eapply step_un; [exact H1|inl|]. intros r2 h2 Hp2 _ H2. eapply step_un; [exact H2|inl|]. intros r3 h3 Hp3 _ H3.
  eapply step_bin; [reflexivity|exact H3|inl|inl|]. intros r4 z4 h4 _ Hp4 _ H4. eapply step_un; [exact H4|inl|]. intros r5 h5 Hp5 _ H5.
  eapply step_bin; [reflexivity|exact H5|inl|inl|]. intros r6 z6 h6 _ Hp6 _ H6. eapply step_un; [exact H6|inl|]. intros r7 h7 Hp7 _ H7.
  eapply last_bin; [eauto 12 using preserves_trans|exact H7|inl|inl].
Qed.
Lemma logtrans_ok : forall h p X1 X2 px gr, P h -> allocated h X1 -> allocated h X2 -> allocated h px -> allocated h gr ->
  hspec (h_logtransition q p X1 X2 px gr) h (returns (logtransition q p (rd h X1) (rd h X2) (rd h px) (rd h gr))).
Proof.
  intros h p X1 X2 px gr Ph HX1 HX2 Hx Hg. unfold h_logtransition, logtransition.
  assert (Hh : holds h [(X1, rd h X1); (X2, rd h X2); (px, rd h px); (gr, rd h gr)]) by (apply holds_cons; auto; apply holds_cons; auto; apply holds_cons; auto; apply holds_one; auto).
  eapply step_bin; [reflexivity|exact Hh|inl|inl|]. intros r1 z1 h1 _ Hp1 _ H1. eapply step_un; [exact H1|inl|]. intros r2 h2 Hp2 _ H2.
  eapply step_un; [exact H2|inl|]. intros r3 h3 Hp3 _ H3. eapply step_bin; [reflexivity|exact H3|inl|inl|]. intros r4 z4 h4 _ Hp4 _ H4.
  eapply step_bin; [reflexivity|exact H4|inl|inl|]. intros r5 z5 h5 _ Hp5 _ H5. eapply step_un; [exact H5|inl|]. intros r6 h6 Hp6 _ H6.
  eapply step_bin; [reflexivity|exact H6|inl|inl|]. intros r7 z7 h7 _ Hp7 _ H7. eapply step_un; [exact H7|inl|]. intros r8 h8 Hp8 _ H8.
  eapply step_values; [exact H8|left; reflexivity|]. apply hspec_ret. reflexivity.
Qed.
Lemma K_ok : forall s p h X Z, P h -> allocated h X -> allocated h Z ->
  hspec (h_K_recursion hf hp q p X s Z) h (gives h (if Nat.eqb s 0 then [r_cell X] else []) (K_recursion f pr q p (rd h X) s (rd h Z))).
Proof.
  intros s p. induction s as [s IH] using (well_founded_induction lt_wf). intros h X Z Ph HX HZ.
  assert (Hh : holds h [(X, rd h X); (Z, rd h Z)]) by (apply holds_cons; auto; apply holds_one; auto).
  destruct s as [|[|s2]].
  - cbn [h_K_recursion K_recursion]. apply hspec_ret. exists X. repeat split; auto. right. left. reflexivity.
  - cbn [h_K_recursion K_recursion Nat.eqb].
    eapply step_lift; [reflexivity|]. intros [[mu nu] k] _. eapply step_un; [exact Hh|inl|]. intros r1 h1 Hp1 _ H1.
    eapply step_bin; [reflexivity|exact H1|inl|inl|]. intros r2 z2 h2 _ Hp2 _ H2.
    assert (Ph2 : P h2) by eauto using preserves_trans. destruct (H2 r2 z2 ltac:(inl)) as [A2 B2].
    eapply hspec_let; [apply gradlogpi_ok; eauto|rewrite B2; intros e h3 -> _; reflexivity|]. rewrite B2. intros z3 r3 h3 E3 Hp3 A3 B3 _. rewrite E3. cbn [rbind].
    assert (H3 : holds h3 ((r3, z3) :: (r2, z2) :: (r1, vscal (RtoC (nu * sqrt (2 * p))) (rd h Z)) :: [(X, rd h X); (Z, rd h Z)])) by (apply holds_cons; auto; eapply holds_mono; eauto).
    eapply step_un; [exact H3|inl|]. intros r4 h4 Hp4 _ H4. eapply step_bin; [reflexivity|exact H4|inl|inl|]. intros r5 z5 h5 _ Hp5 _ H5.
    eapply step_un; [exact H5|inl|]. intros r6 h6 Hp6 _ H6. eapply last_bin; [eauto 10 using preserves_trans|exact H6|inl|inl].
  - remember (S s2) as s1 eqn:E1. cbn [h_K_recursion K_recursion Nat.eqb].  destruct s1 as [|s0]; [discriminate|]. injection E1 as ->.
    eapply step_lift; [reflexivity|]. intros [[mu nu] k] _.
    eapply hspec_let; [apply IH; [lia|auto|auto|auto]|intros e h1 -> _; reflexivity|]. intros z1 r1 h1 Ez1 Hp1 A1 B1 _. rewrite Ez1. cbn [rbind].
    assert (H1 : holds h1 ((r1, z1) :: [(X, rd h X); (Z, rd h Z)])) by (apply holds_cons; auto; eapply holds_mono; eauto).
    eapply hspec_let; [apply gradlogpi_ok; eauto|rewrite B1; intros e h2 -> _; reflexivity|]. rewrite B1. intros z2 r2 h2 Ez2 Hp2 A2 B2 _. rewrite Ez2. cbn [rbind].
    assert (H2 : holds h2 ((r2, z2) :: (r1, z1) :: [(X, rd h X); (Z, rd h Z)])) by (apply holds_cons; auto; eapply holds_mono; eauto).
    eapply step_un; [exact H2|inl|]. intros r3 h3 Hp3 _ H3.
    assert (Ph3 : P h3) by eauto 10 using preserves_trans. destruct (H3 X (rd h X) ltac:(inl)) as [AX BX]. destruct (H3 Z (rd h Z) ltac:(inl)) as [AZ BZ].
    eapply hspec_let; [apply IH; [lia|exact Ph3|exact AX|exact AZ]|rewrite BX, BZ, Ez1; discriminate|]. rewrite BX, BZ, Ez1. intros z4 r4 h4 E4 Hp4 A4 B4 _. apply Ok_inj in E4. subst z4.
    assert (H4 : holds h4 ((r4, z1) :: (r3, vscal (RtoC (mu * p)) z2) :: (r2, z2) :: (r1, z1) :: [(X, rd h X); (Z, rd h Z)])) by (apply holds_cons; auto; eapply holds_mono; eauto).
    eapply step_un; [exact H4|inl|]. intros r5 h5 Hp5 _ H5. eapply step_bin; [reflexivity|exact H5|inl|inl|]. intros r6 z6 h6 _ Hp6 _ H6.
    eapply step_un; [exact H6|inl|]. intros r7 h7 Hp7 _ H7. assert (Ph7 : P h7) by eauto 10 using preserves_trans.
    destruct (H7 X (rd h X) ltac:(inl)) as [AX7 BX7]. destruct (H7 Z (rd h Z) ltac:(inl)) as [AZ7 BZ7].
    eapply hspec_let; [apply IH; [lia|exact Ph7|exact AX7|exact AZ7]|rewrite BX7, BZ7; intros e h8 -> _; reflexivity|]. rewrite BX7, BZ7. intros z8 r8 h8 E8 Hp8 A8 B8 _. rewrite E8. cbn [rbind].
    assert (H8 : holds h8 [(r8, z8); (r7, vshift (RtoC k) z6)]).
    { apply holds_cons; auto. eapply holds_mono; [exact Hp8|]. intros r v [Er|[]]. apply H7. left. exact Er. }
    eapply last_bin; [eauto 12 using preserves_trans|exact H8|inl|inl].
Qed.
Hypothesis s_pos : (1 <= n_s q)%Z.
Lemma skstep_ok : forall h p X g, P h -> allocated h X ->
  snd (h_skrock_step R0 hf hp q p X g) = snd (skrock_step R0 f pr q p (rd h X) g) /\
  hspec (fst (h_skrock_step R0 hf hp q p X g)) h (gives h [] (fst (skrock_step R0 f pr q p (rd h X) g))).
Proof.
  intros h p X g Ph HX. unfold h_skrock_step, skrock_step. rewrite rd_length. destruct (draw (g_randn R0) (n_complex q) (length (r_idx X)) g) as [Z g']. cbn [fst snd]. split; [reflexivity|].
  pose proof (holds_one h X HX) as Hh. eapply step_alloc; [exact Hh|]. intros r1 h1 Hp1 _ H1. destruct (H1 X (rd h X) ltac:(inl)) as [A B]. destruct (H1 r1 Z ltac:(inl)) as [A1 B1].
  eapply hspec_conseq; [apply K_ok; eauto|]. replace (Z.to_nat (n_s q) =? 0)%nat with false by (symmetry; apply Nat.eqb_neq; lia).
  rewrite B, B1. intros o h' _ Hg. eapply gives_shift; [exact Hp1|exact Hg|]. intros c [].
Qed.
Lemma ops_ok : ops_on_arrays P (h_mcmc_ops R0 hf hp q) (mcmc_ops R0 f pr q).
Proof.
  constructor; cbn [h_mcmc_ops mcmc_ops ho_forward ho_gradg ho_proxf ho_logpi ho_step ho_skstep ho_logtrans o_forward o_gradg o_proxf o_logpi o_step o_skstep o_logtrans].
  - exact forward_ok.
  - exact gradg_ok.
  - apply PA.
  - exact logpi_ok.
  - exact step_ok.
  - exact skstep_ok.
  - exact logtrans_ok.
Qed.
Lemma start_ok : forall h hs s, start_on_arrays h hs s -> init_ok (mcmc_ops R0 f pr q) (h_mcmc_ops R0 hf hp q) hs s h.
Proof.
  intros h hs s Hs g. cbn [h_mcmc_ops mcmc_ops ho_init o_init]. unfold h_choose_start, choose_start. rewrite (fa_nparams _ _ _ FA).
  destruct hs as [|sh r|], s as [|sh' buf|]; try contradiction.
  - destruct (fo_nparams f) as [n|]; [|split; [reflexivity|split; [apply preserves_refl|reflexivity]]].
    destruct (draw (g_laplace R0) (n_complex q) n g) as [X g']. cbn [fst snd]. split; [reflexivity|].
    eapply hspec_conseq; [apply alloc_spec|]. intros o h' _ [r [-> [A [B _]]]]. eauto.
  - destruct Hs as [-> [A B]]. destruct (negb _); [split; [reflexivity|split; [apply preserves_refl|reflexivity]]|].
    destruct (fo_nparams f) as [n|]; [|split; [reflexivity|split; [apply preserves_refl|reflexivity]]].
    replace (length (r_idx r)) with (length buf) by (rewrite <- B; apply rd_length).
    destruct (Nat.eqb _ _); (split; [reflexivity|split; [apply preserves_refl|cbn; eauto]]).
  - split; [reflexivity|split; [apply preserves_refl|reflexivity]].
Qed.
End Num.
Lemma store_row_length : forall n c x y, store_row n c x = Ok y -> length y = n.
Proof.
  intros n c x y E. unfold store_row in E. destruct (Nat.eqb _ _) eqn:L.
  - apply Nat.eqb_eq in L. apply Ok_inj in E. subst y. rewrite map_length. exact L.
  - destruct x as [|z [|? ?]]; try discriminate. apply Ok_inj in E. subst y. apply repeat_length.
Qed.
