(** C18, C44: dictionaries keep one entry per name. *)
From Coq Require Import List ZArith Bool String.
From Verif Require Import PyBase PyBaseFacts Sampler Objects ObjSpec ObjProof P_Objects.
Import ListNotations.
Notation length := List.length.

Definition one_each {A} (d : dict A) : Prop := NoDup (map fst d).

(** the file written by save_mcmc, also when it stops with an exception, has one
    data set and one attribute of each name *)
Theorem C18_one_entry_per_name : forall V D K P X B h5_open h5_data h5_attr fs (h : heap V D K P X) m lp outpath filename kwargs p (f : h5file B),
  (forall g, fs p = Some g -> one_each (h5_datasets g) /\ one_each (h5_attrs g)) ->
  fst (save_mcmc h5_open h5_data h5_attr fs h m lp outpath filename kwargs) p = Some f ->
  one_each (h5_datasets f) /\ one_each (h5_attrs f).
Proof.
  intros V D K P X B ho hd ha fs h m lp outpath filename kwargs p f H0 H. unfold save_mcmc in H.
  destruct (ho _) as [[]|e]; [|exact (H0 _ H)]. cbv zeta in H. unfold file_put in H. change (fst (?a, ?b)) with a in H. cbv beta in H.
  destruct (String.eqb p _); [|exact (H0 _ H)].
  apply (f_equal (fun o => match o with Some x => x | None => f end)) in H. cbv beta iota in H. rewrite <- H. clear H.
  set (good := fun st : @fstep B => one_each (h5_datasets (fst st)) /\ one_each (h5_attrs (fst st))).
  assert (GD : forall xs st, good st -> good (fold_left (put_dataset hd h m) xs st)).
  { induction xs as [|[[a n] i1] xs IH]; intros [g [e|]] Hg; cbn [fold_left]; auto; apply IH; cbn [put_dataset]; auto.
    destruct (hasattr h m a); auto. destruct (let* v := getattr h m a in hd i1 v) as [b|e]; [|exact Hg].
    destruct Hg as [G1 G2]. split; cbn; [apply (NoDup_dset _ _ _ G1)|exact G2]. }
  assert (GA : forall xs st, good st -> good (fold_left (put_attr ha) xs st)).
  { induction xs as [|[k [v|e']] xs IH]; intros [g [e|]] Hg; cbn [fold_left]; auto; apply IH; unfold put_attr; cbn [fst snd rbind]; auto.
    destruct (ha v) as [b|e]; [|exact Hg]. destruct Hg as [G1 G2]. split; cbn; [exact G1|apply (NoDup_dset _ _ _ G2)]. }
  apply GA, GA, (GD _ (mkH5 [] [], None)). split; constructor.
Qed.
Print Assumptions C18_one_entry_per_name.

Section Keys.
Context {V D K P G I X : Type}.
Notation heap := (heap V D K P X).
Definition all_one (h : heap) : Prop := forall l d, hget h l = Some d -> one_each d.

Lemma all_one_upd : forall (h : heap) l d, all_one h -> one_each d -> all_one (upd h l d).
Proof.
  intros h l d Hh Hd l' d' E. unfold hget in *. destruct (Nat.lt_ge_cases l (length h)) as [L|L].
  - rewrite nth_error_upd in E by exact L. destruct (Nat.eqb l' l); [injection E as <-; exact Hd|exact (Hh _ _ E)].
  - assert (Q : upd h l d = h).
    { clear -L. revert l L. induction h; intros [|l] L; simpl in *; auto; [inversion L|f_equal; apply IHh, le_S_n; exact L]. }
    rewrite Q in E. exact (Hh _ _ E).
Qed.
Lemma all_one_setattr : forall (h : heap) l k v, all_one h -> all_one (setattr h l k v).
Proof.
  intros h l k v Hh. unfold setattr. destruct (hget h l) as [d|] eqn:E; auto. apply all_one_upd; auto. apply (NoDup_dset _ _ _ (Hh _ _ E)).
Qed.
Lemma all_one_copy : forall ks (h : heap) lp self, all_one h -> all_one (fold_left (copy_attr lp self) ks h).
Proof.
  induction ks; intros h lp self Hh; cbn; auto. apply IHks. unfold copy_attr. destruct (getattr h lp a); auto. apply all_one_setattr, Hh.
Qed.
Lemma all_one_array : forall (h h' : heap) self name attr mk, all_one h -> init_array h self name attr mk = Ok h' -> all_one h'.
Proof.
  intros h h' self name attr mk Hh E. unfold init_array in E. destruct (getattr h self "track") as [tv|]; [|discriminate]. cbn [rbind] in E.
  destruct (as_names tv) as [tr|]; [|discriminate]. cbn [rbind] in E. destruct (str_in name tr); [|injection E as <-; exact Hh].
  destruct (getattr h self "nsamples") as [nv|]; [|discriminate]. cbn [rbind] in E. destruct (as_int nv) as [n|]; [|discriminate]. cbn [rbind] in E.
  destruct (n <? 0)%Z; [discriminate|]. injection E as <-. apply all_one_setattr, Hh.
Qed.
Lemma all_one_init : forall zK zD zV (h h' : heap) f p lp self, all_one h -> PxMCMC_init zK zD zV h f p lp = Ok (h', self) -> all_one h'.
Proof.
  intros zK zD zV h h' f p lp self Hh E. unfold PxMCMC_init in E. destruct (hget h lp); [|discriminate]. cbv zeta in E.
  set (h1 := copy_attrs _ _ _) in E. assert (A1 : all_one h1).
  { unfold h1, copy_attrs. assert (A0 : all_one (setattr (setattr (h ++ [[]]) (length h) "forward" f) (length h) "prior" p)).
    { apply all_one_setattr, all_one_setattr. intros l' d' E'. unfold hget in E'.
      destruct (Nat.lt_ge_cases l' (length h)) as [L|L].
      - rewrite nth_error_app1 in E' by exact L. exact (Hh _ _ E').
      - rewrite nth_error_app2 in E' by exact L. destruct (l' - length h)%nat as [|[|q]]; cbn in E'; try discriminate.
        injection E' as <-. constructor. }
    destruct (hget _ lp); [apply all_one_copy, A0|exact A0]. }
  destruct (initialise_tracking_arrays zK zD zV h1 (length h)) as [h2|] eqn:E2; [|discriminate]. cbn [rbind] in E. injection E as <- _.
  unfold initialise_tracking_arrays in E2.
  destruct (init_array h1 _ _ _ _) as [a|] eqn:F1; [|discriminate]. cbn [rbind] in E2.
  destruct (init_array a _ _ _ _) as [b|] eqn:F2; [|discriminate]. cbn [rbind] in E2.
  destruct (init_array b _ _ _ _) as [c|] eqn:F3; [|discriminate]. cbn [rbind] in E2.
  destruct (init_array c _ _ _ _) as [d0|] eqn:F4; [|discriminate]. cbn [rbind] in E2.
  eapply all_one_array; [|exact E2]. eapply all_one_array; [|exact F4]. eapply all_one_array; [|exact F3]. eapply all_one_array; [|exact F2].
  eapply all_one_array; [|exact F1]. exact A1.
Qed.
Lemma one_each_opt : forall {A} (d : dict (pyval V D K P X)) k (mk : A -> pyval V D K P X) o, one_each d -> one_each (dset_opt d k mk o).
Proof. intros A d k mk [a|] Hd; cbn; auto. apply (NoDup_dset _ _ _ Hd). Qed.
Lemma one_each_write : forall (d : dict (pyval V D K P X)) s, one_each d -> one_each (write_inst d s).
Proof.
  intros d s Hd. unfold write_inst. cbv zeta. apply NoDup_dset. change (NoDup (dkeys ?d)) with (one_each d). do 7 apply one_each_opt. exact Hd.
Qed.
End Keys.

(** so does every object after any session *)
Theorem C44_one_attribute_per_name : forall V D K P G I X zK zD zV mko (w : pyworld V D K P G X) (acts : list (action V D K P I X)),
  (forall l d, hget (py_heap w) l = Some d -> one_each d) ->
  forall l d, hget (py_heap (session zK zD zV mko w acts)) l = Some d -> one_each d.
Proof.
  intros V D K P G I X zK zD zV mko w acts. revert w. induction acts as [|a acts IH]; intros w Hw; [exact Hw|].
  cbn [session fold_left]. apply IH. change (all_one (py_heap (exec zK zD zV mko w a))).
  destruct a as [f p lp|l k fuel start]; cbn [exec].
  - destruct (PxMCMC_init zK zD zV (py_heap w) f p lp) as [[h self]|] eqn:E; [|exact Hw]. eapply all_one_init; [exact Hw|exact E].
  - unfold run_sampler. destruct (hget (py_heap w) l) as [d|] eqn:E; [|exact Hw].
    destruct (read_params d); [|exact Hw]. destruct (read_inst d (py_out w)); [|exact Hw].
    destruct (run_kind k (mko d) _ fuel start _) as [w' r]. cbn [fst py_heap]. apply all_one_upd; [exact Hw|].
    apply one_each_write, (Hw _ _ E).
Qed.
Print Assumptions C44_one_attribute_per_name.

(** a run of a sampler object leaves the generator where its loop left it, and
    appends the loop's output *)
Theorem C44_generator_advances : forall V D K P G I X (mko : dict (pyval V D K P X) -> ops V D K P G I) w l k fuel start d prm s,
  hget (py_heap w) l = Some d -> read_params d = Ok prm -> read_inst d (py_out w) = Ok s ->
  let loop := run_kind k (mko d) prm fuel start (mkWorld s (py_rng w)) in
  let run := run_sampler mko w l k fuel start in
  snd run = snd loop /\ py_rng (fst run) = w_rng (fst loop) /\ py_out (fst run) = i_out (w_inst (fst loop)).
Proof.
  intros V D K P G I X mko w l k fuel start d prm s E1 E2 E3 loop run. unfold run, run_sampler. rewrite E1, E2, E3. fold loop.
  destruct loop as [w' r]. auto.
Qed.
Print Assumptions C44_generator_advances.

Example C44_case_keys : one_each (dset (dset (dset [] "delta" 1) "chain" 2) "delta" 3)%string /\
  dkeys (dset (dset (dset [] "delta" 1) "chain" 2) "delta" 3)%string = ["delta"; "chain"]%string.
Proof. split; [|reflexivity]. repeat constructor; simpl; intuition discriminate. Qed.
